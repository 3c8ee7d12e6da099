(** The in-memory tree keeps its shape and its metrics right. *)
From Coq Require Import Lia.
From Verif Require Import Base Tree SpecTree.

Section P.
Context {K : Type} {E : Teq K} {O : TeqOk K}.
Implicit Type s : nodes K.

(** * Chains *)
Lemma up_fun s t l : up s t l -> forall l', up s t l' -> l = l'.
Proof.
  induction 1 as [t n H1 H2|t n q l H1 H2 H IH]; intros l' H'; inversion H'; subst; try congruence.
  f_equal; apply IH. congruence.
Qed.
Lemma up_head s t l : up s t l -> exists l', l = t :: l'.
Proof. inversion 1; subst; eauto. Qed.
Lemma up_mem s t l : up s t l -> forall x, In x l -> exists l1 l2, l = l1 ++ l2 /\ up s x l2.
Proof.
  induction 1 as [t n H1 H2|t n q l H1 H2 H IH]; intros x [<-|Hx].
  - exists [], [t]; split; [reflexivity|econstructor; eauto].
  - destruct Hx.
  - exists [], (t :: l); split; [reflexivity|eapply up_step; eauto].
  - destruct (IH x Hx) as [l1 [l2 [-> Hu]]]; exists (t :: l1), l2; auto.
Qed.
Lemma up_not_in_tail s t q l n : dget s t = Some n -> parent n = Some q -> up s q l -> ~ In t l.
Proof.
  intros H1 H2 H Hin. destruct (up_mem s q l H t Hin) as [l1 [l2 [-> Hu]]].
  pose proof (up_fun _ _ _ Hu _ (up_step s t n q _ H1 H2 H)) as C.
  apply (f_equal (@length K)) in C; cbn in C; rewrite app_length in C; lia.
Qed.
Lemma up_NoDup s t l : up s t l -> NoDup l.
Proof.
  induction 1 as [t n H1 H2|t n q l H1 H2 H IH]; constructor; auto; [constructor|].
  eapply up_not_in_tail; eauto.
Qed.
Lemma up_incl s t l : up s t l -> incl l (dkeys s).
Proof.
  induction 1 as [t n H1 H2|t n q l H1 H2 H IH]; intros x [<-|Hx]; try (now apply dget_Some_key in H1); auto.
Qed.
Lemma up_length s t l : up s t l -> length l <= length s.
Proof.
  intros H; etransitivity; [apply NoDup_incl_length; [eapply up_NoDup; eauto|eapply up_incl; eauto]|].
  unfold dkeys; now rewrite map_length.
Qed.

Lemma path_loop_ok s t l : up s t l -> forall fuel path, length l <= fuel ->
  path_loop fuel s (Some t) path = Ok (Some (rev l ++ rev path)).
Proof.
  induction 1 as [t n H1 H2|t n q l H1 H2 H IH]; intros fuel path Hf; cbn in Hf;
    (destruct fuel as [|fuel]; [lia|]); cbn [path_loop]; rewrite H1, H2.
  - destruct fuel; cbn [path_loop]; rewrite rev_app_distr; reflexivity.
  - rewrite IH by lia. cbn [rev]. now rewrite rev_app_distr, <- app_assoc.
Qed.
Lemma path_to_ok s t l : up s t l -> m_path_to s t = Ok (Some (rev l)).
Proof.
  intros H; unfold m_path_to; rewrite (path_loop_ok s t l H); [now rewrite app_nil_r|].
  pose proof (up_length _ _ _ H); lia.
Qed.
Lemma path_to_unknown s t : dget s t = None -> m_path_to s t = Ok None.
Proof. intros H; unfold m_path_to; cbn [path_loop]; now rewrite H. Qed.

(** * Shapes *)
Definition shape_ok s : Prop :=
  NoDup (dkeys s) /\ is_forest s /\ forall t n, dget s t = Some n -> children_right s t n.

Definition metric_at s (t : K) : Prop :=
  forall n, dget s t = Some n ->
  exists h z, child_metrics s (children n) = Ok (h, z) /\ height n = h + 1 /\ size n = z + 1.

Definition tree_ok s : Prop := shape_ok s /\ forall t, metric_at s t.

(** same nodes, up to height and size *)
Definition same_but_metrics (n m : node K) : Prop :=
  order_id n = order_id m /\ parent n = parent m /\ children n = children m /\ base n = base m.
Definition same_shape s s' : Prop :=
  dkeys s = dkeys s' /\
  forall t, match dget s t, dget s' t with
            | Some n, Some m => same_but_metrics n m
            | None, None => True
            | _, _ => False
            end.
Lemma same_shape_refl s : same_shape s s.
Proof. split; [reflexivity|intros t; destruct (dget s t); unfold same_but_metrics; auto]. Qed.
Lemma same_shape_trans a b c : same_shape a b -> same_shape b c -> same_shape a c.
Proof.
  intros [H1 H2] [H3 H4]; split; [congruence|]. intros t; specialize (H2 t); specialize (H4 t).
  destruct (dget a t), (dget b t), (dget c t); try tauto.
  unfold same_but_metrics in *; intuition congruence.
Qed.
Lemma same_shape_sym a b : same_shape a b -> same_shape b a.
Proof.
  intros [H1 H2]; split; [congruence|]. intros t; specialize (H2 t).
  destruct (dget a t), (dget b t); try tauto. unfold same_but_metrics in *; intuition congruence.
Qed.
Lemma same_get s s' t n : same_shape s s' -> dget s t = Some n ->
  exists m, dget s' t = Some m /\ same_but_metrics n m.
Proof. intros [_ H] Hn; specialize (H t); rewrite Hn in H. destruct (dget s' t); [eauto|contradiction]. Qed.
Lemma same_get' s s' t m : same_shape s s' -> dget s' t = Some m ->
  exists n, dget s t = Some n /\ same_but_metrics n m.
Proof. intros [_ H] Hn; specialize (H t); rewrite Hn in H. destruct (dget s t); [eauto|contradiction]. Qed.
Lemma same_child s s' : same_shape s s' -> forall c t, child_of s c t -> child_of s' c t.
Proof.
  intros H c t [n [Hn Hp]]; destruct (same_get _ _ _ _ H Hn) as [m [Hm [_ [Hq _]]]].
  exists m; split; congruence.
Qed.
Lemma same_up s s' : same_shape s s' -> forall t l, up s t l -> up s' t l.
Proof.
  intros H t l; induction 1 as [t n H1 H2|t n q l H1 H2 Hu IH];
    destruct (same_get _ _ _ _ H H1) as [m [Hm [_ [Hq _]]]].
  - eapply up_root; [eauto|congruence].
  - eapply up_step; [eauto|rewrite <- Hq; exact H2|exact IH].
Qed.
Lemma same_shape_ok s s' : same_shape s s' -> shape_ok s -> shape_ok s'.
Proof.
  intros H [N [F C]]; split; [destruct H as [<- _]; exact N|split].
  - intros t Ht. destruct (dget s' t) as [m|] eqn:Hm; [|now destruct Ht].
    destruct (same_get' _ _ _ _ H Hm) as [n [Hn _]].
    destruct (F t) as [l Hl]; [congruence|]. exists l; eapply same_up; eauto.
  - intros t m Hm. destruct (same_get' _ _ _ _ H Hm) as [n [Hn [_ [_ [Hc _]]]]].
    destruct (C t n Hn) as [C1 C2]; split; [congruence|].
    intros c; rewrite <- Hc, C2; split; apply same_child; [exact H|now apply same_shape_sym].
Qed.

(** * Metrics *)
Lemma child_metrics_ext s s' l :
  (forall c, In c l -> dget s' c = dget s c) -> child_metrics s' l = child_metrics s l.
Proof.
  induction l as [|c l IH]; intros H; cbn; [reflexivity|].
  rewrite H by (now left). rewrite IH by (intros; apply H; now right). reflexivity.
Qed.
Lemma child_metrics_total s l : (forall c, In c l -> dget s c <> None) ->
  exists h z, child_metrics s l = Ok (h, z).
Proof.
  induction l as [|c l IH]; intros H; cbn; [eauto|].
  destruct (dget s c) as [n|] eqn:Hc; [|exfalso; apply (H c); [now left|exact Hc]].
  destruct IH as [h [z ->]]; [intros; apply H; now right|]. cbn [bind fst snd]; eauto.
Qed.

Lemma child_not_self s t n : shape_ok s -> dget s t = Some n -> ~ In t (children n).
Proof.
  intros [_ [F C]] Hn Hin. apply (C t n Hn) in Hin as [m [Hm Hp]].
  rewrite Hn in Hm; injection Hm as <-.
  destruct (F t) as [l Hl]; [congruence|].
  inversion Hl; subst; [congruence|].
  assert (n0 = n) by congruence; subst n0. assert (q = t) by congruence; subst q.
  pose proof (up_not_in_tail s t t l0 n Hn Hp ltac:(assumption)) as X. apply X.
  match goal with Hu : up s t l0 |- _ => destruct (up_head _ _ _ Hu) as [l' ->]; now left end.
Qed.

Lemma set_metrics_shape s t n h z : dget s t = Some n -> same_shape s (dset s t (set_metrics n h z)).
Proof.
  intros Hn; split.
  - rewrite dkeys_dset; unfold dmem; now rewrite Hn.
  - intros u; rewrite dget_dset; destruct (teq_spec t u) as [<-|Hu].
    + rewrite Hn; repeat split.
    + destruct (dget s u); unfold same_but_metrics; auto.
Qed.

Lemma update_metrics_ok s t l : up s t l -> shape_ok s -> forall fuel, length l <= fuel ->
  exists s', update_metrics fuel (Some t) s = (s', Ok tt) /\ same_shape s s' /\
    forall u, metric_at s u \/ In u l -> metric_at s' u.
Proof.
  intros Hu; remember s as s0 eqn:Hs0 in Hu at 1. 
  assert (SS : same_shape s0 s) by (subst; apply same_shape_refl). clear Hs0.
  revert s SS; induction Hu as [t n0 H1 H2|t n0 q l H1 H2 H IH]; intros s SS SO fuel Hf; cbn in Hf;
    (destruct fuel as [|fuel]; [lia|]); cbn [update_metrics];
    destruct (same_get _ _ _ _ SS H1) as [n [Hn [_ [Hp _]]]]; rewrite Hn;
    (destruct (child_metrics_total s (children n)) as [h [z Hm]];
      [intros c Hc C; apply (proj2 (proj2 SO) t n Hn) in Hc as [m [Hc _]]; congruence|]);
    rewrite Hm; set (s1 := dset s t (set_metrics n (h + 1) (z + 1)));
    assert (S1 : same_shape s s1) by (now apply set_metrics_shape);
    assert (M1 : forall u, u = t \/ (metric_at s u /\ Some u <> parent n) -> metric_at s1 u).
  1, 3: intros u Hu nu Hnu; unfold s1 in Hnu; rewrite dget_dset in Hnu;
    destruct (teq_spec t u) as [<-|Htu];
    [ injection Hnu as <-; exists h, z; cbn [set_metrics children height size]; repeat split; auto;
      unfold s1; rewrite (child_metrics_ext s); [exact Hm|];
      intros c Hc; apply dget_dset_other; intros <-; now apply (child_not_self s t n SO Hn)
    | destruct Hu as [->|[Hu Hup]]; [congruence|];
      destruct (Hu nu Hnu) as [h' [z' [Hm' R]]]; exists h', z'; split; [|exact R];
      unfold s1; rewrite (child_metrics_ext s); [exact Hm'|];
      intros c Hc; apply dget_dset_other; intros <-;
      apply (proj2 (proj2 SO) u nu Hnu) in Hc as [m [Hc Hpc]]; congruence ].
  - rewrite <- Hp, H2. exists s1; destruct fuel; cbn [update_metrics]; (split; [reflexivity|]; split; [exact S1|]);
      intros u [Hu|[<-|[]]]; apply M1; auto; right; split; auto; congruence.
  - rewrite <- Hp, H2.
    destruct (IH s1) with (fuel := fuel) as [s' [U [SS' M']]]; [eapply same_shape_trans; eauto| |lia|].
    { eapply same_shape_ok; [exact S1|exact SO]. }
    exists s'; split; [exact U|]. split; [eapply same_shape_trans; eauto|].
    intros u Hu; apply M'. destruct Hu as [Hu|[<-|Hu]]; [|left; apply M1; now left|now right].
    destruct (teq_spec u q) as [->|Hq].
    + right. destruct (up_head _ _ _ H) as [l' ->]; now left.
    + left; apply M1; right; split; [exact Hu|]. congruence.
Qed.

(** * add *)
Lemma add_gets s t b : dget s t = None ->
  let s' := fst (m_add t b s) in
  (forall u, dget s' u = if teq t u then Some (mkNode (length s) None [] 1 1 b) else dget s u) /\
  dkeys s' = dkeys s ++ [t].
Proof.
  intros Ht s'; unfold s', m_add; cbn [fst]. split; [intros u; apply dget_dset|].
  rewrite dkeys_dset; unfold dmem; now rewrite Ht.
Qed.
Lemma add_shape s t b : shape_ok s -> dget s t = None -> shape_ok (fst (m_add t b s)).
Proof.
  intros [N [F C]] Ht; unfold m_add; cbn [fst].
  set (n0 := mkNode (length s) None [] 1 1 b).
  assert (D : forall u, dget (dset s t n0) u = if teq t u then Some n0 else dget s u) by (intros; apply dget_dset).
  assert (CH : forall c q, child_of (dset s t n0) c q <-> child_of s c q).
  { intros c q; unfold child_of; split; intros [n [Hn Hp]].
    - rewrite D in Hn; destruct (teq_spec t c) as [<-|]; [injection Hn as <-; discriminate|eauto].
    - exists n; split; [|exact Hp]. rewrite D; destruct (teq_spec t c) as [<-|]; [congruence|exact Hn]. }
  assert (NC : forall q, ~ child_of s q t).
  { intros q [n [Hn Hp]]. destruct (F q) as [l Hl]; [congruence|].
    inversion Hl; subst; [congruence|]. assert (n1 = n) by congruence; subst n1.
    assert (q0 = t) by congruence; subst q0.
    match goal with Hu : up s t _ |- _ => inversion Hu; subst; congruence end. }
  split; [|split].
  - now apply NoDup_dset.
  - intros u Hu. rewrite D in Hu. destruct (teq_spec t u) as [Heq|Htu].
    + subst u; exists [t]; eapply up_root with (n := n0); [rewrite D, teq_refl; reflexivity|reflexivity].
    + destruct (F u Hu) as [l Hl]; exists l. clear Hu Htu.
      assert (Hne : forall x n, dget s x = Some n -> dget (dset s t n0) x = Some n).
      { intros x n Hx; rewrite D; destruct (teq_spec t x) as [<-|]; congruence. }
      induction Hl; [eapply up_root|eapply up_step]; eauto.
  - intros u n Hn; rewrite D in Hn. destruct (teq_spec t u) as [<-|Htu].
    + injection Hn as <-; split; [constructor|]. intros c; rewrite CH; cbn; split; [tauto|]. apply NC.
    + destruct (C u n Hn) as [C1 C2]; split; [exact C1|]. intros c; rewrite CH; apply C2.
Qed.
Lemma add_ok s t b : tree_ok s -> dget s t = None ->
  let s' := fst (m_add t b s) in
  tree_ok s' /\ (forall u, dget s' u = if teq t u then Some (mkNode (length s) None [] 1 1 b) else dget s u) /\
  dkeys s' = dkeys s ++ [t].
Proof.
  intros [SO M] Ht s'. destruct (add_gets s t b Ht) as [D Kk]. fold s' in D, Kk.
  split; [split|split; [exact D|exact Kk]]; [now apply add_shape|].
  intros u n Hn; rewrite D in Hn. destruct (teq_spec t u) as [<-|Htu].
  - injection Hn as <-; exists 0, 0; auto.
  - destruct (M u n Hn) as [h [z [Hm R]]]; exists h, z; split; [|exact R].
    rewrite (child_metrics_ext s); [exact Hm|]. intros c Hc; rewrite D.
    destruct (teq_spec t c) as [<-|]; [|reflexivity].
    apply (proj2 (proj2 SO) u n Hn) in Hc as [m [Hm' _]]; congruence.
Qed.

(** * change_parent *)
Lemma remove1_In x l : NoDup l -> forall y, In y (remove1 x l) <-> In y l /\ y <> x.
Proof.
  induction 1 as [|z l Hz _ IH]; intros y; cbn; [tauto|].
  destruct (teq_spec z x) as [->|H].
  - split; [intros Hy; split; [now right|intros ->; contradiction]|].
    intros [[->|Hy] Hn]; [now destruct Hn|exact Hy].
  - cbn; rewrite IH; split; [intros [->|[Hy Hn]]; auto|tauto].
Qed.
Lemma remove1_NoDup x l : NoDup l -> NoDup (remove1 x l).
Proof.
  induction 1 as [|z l Hz Hl IH]; cbn; [constructor|].
  destruct (teq z x); [exact Hl|]. constructor; [|exact IH].
  rewrite remove1_In by exact Hl; tauto.
Qed.
Lemma remove1_absent x l : mem_tag x l = false -> remove1 x l = l.
Proof.
  induction l as [|z l IH]; cbn; [reflexivity|]. destruct (teq z x); cbn; [discriminate|].
  intros H; now rewrite IH.
Qed.
Lemma dset_id s t n : dget s t = Some n -> dset s t n = s.
Proof.
  induction s as [|[k v] s IH]; cbn; [discriminate|].
  destruct (teq k t); intros H; [now injection H as ->|now rewrite IH].
Qed.
Lemma set_children_id (n : node K) : set_children n (children n) = n.
Proof. now destruct n. Qed.

Definition opt_is (p : option K) (u : K) : bool := match p with Some q => teq q u | None => false end.

(** the node [u] after [tag] moved from [p0] to [new] *)
Definition moved (tag : K) (p0 new : option K) (u : K) (n : node K) : node K :=
  let ch := if opt_is p0 u then remove1 tag (children n) else children n in
  let ch := if opt_is new u then ch ++ [tag] else ch in
  mkNode (order_id n) (if teq tag u then new else parent n) ch (height n) (size n) (base n).

Definition moved_tree s s3 (tag : K) (p0 new : option K) : Prop :=
  dkeys s3 = dkeys s /\
  forall u, dget s3 u = match dget s u with Some n => Some (moved tag p0 new u n) | None => None end.

Lemma opt_is_spec p u : opt_is p u = true <-> p = Some u.
Proof.
  destruct p as [q|]; cbn; [|split; discriminate].
  destruct (teq_spec q u) as [->|H]; split; congruence.
Qed.

Lemma moved_up s s3 tag p0 new n0 : shape_ok s -> moved_tree s s3 tag p0 new ->
  dget s tag = Some n0 ->
  (match new with Some r => exists lr, up s r lr /\ ~ In tag lr | None => True end) ->
  forall t l, up s t l ->
    (~ In tag l /\ up s3 t l) \/
    (exists l1 l2, l = l1 ++ l2 /\ up s tag l2 /\
      up s3 t (l1 ++ tag :: match new with Some r => match m_path_to s r with Ok (Some p) => rev p | _ => [] end | None => [] end)).
Proof.
  intros SO [Hk Hg] H0 Hnew.
  assert (Plain : forall t l, up s t l -> ~ In tag l -> up s3 t l).
  { intros t l; induction 1 as [t n H1 H2|t n q l H1 H2 Hu IH]; intros Hni.
    - eapply up_root; [rewrite Hg, H1; reflexivity|]. cbn.
      destruct (teq_spec tag t) as [->|]; [exfalso; apply Hni; now left|exact H2].
    - eapply up_step with (q := q); [rewrite Hg, H1; reflexivity| |apply IH; intros C; apply Hni; now right]. cbn.
      destruct (teq_spec tag t) as [->|]; [exfalso; apply Hni; now left|exact H2]. }
  assert (Utag : up s3 tag (tag :: match new with Some r => match m_path_to s r with Ok (Some p) => rev p | _ => [] end | None => [] end)).
  { destruct new as [r|].
    - destruct Hnew as [lr [Hr Hni]]. rewrite (path_to_ok _ _ _ Hr), rev_involutive.
      eapply up_step with (q := r); [rewrite Hg, H0; reflexivity| |now apply Plain]. cbn; now rewrite teq_refl.
    - eapply up_root; [rewrite Hg, H0; reflexivity|]. cbn; now rewrite teq_refl. }
  intros t l; induction 1 as [t n H1 H2|t n q l H1 H2 Hu IH].
  - destruct (teq_spec tag t) as [->|Hne].
    + right; exists [], [t]; split; [reflexivity|split; [now apply up_root with (n := n)|exact Utag]].
    + left; split; [intros [->|[]]; now destruct Hne|]. apply Plain; [now apply up_root with (n := n)|intros [->|[]]; now destruct Hne].
  - destruct (teq_spec tag t) as [->|Hne].
    + right; exists [], (t :: l); split; [reflexivity|split; [eapply up_step; eauto|exact Utag]].
    + destruct IH as [[Hni IH]|[l1 [l2 [-> [Ht IH]]]]].
      * left; split; [intros [->|C]; [now destruct Hne|contradiction]|].
        apply Plain; [eapply up_step; eauto|intros [->|C]; [now destruct Hne|contradiction]].
      * right; exists (t :: l1), l2; split; [reflexivity|split; [exact Ht|]].
        cbn [app]. eapply up_step with (q := q); [rewrite Hg, H1; reflexivity| |exact IH]. cbn.
        destruct (teq_spec tag t); [contradiction|exact H2].
Qed.

Lemma moved_shape s s3 tag new n0 : shape_ok s -> dget s tag = Some n0 ->
  moved_tree s s3 tag (parent n0) new ->
  (match new with Some r => exists lr, up s r lr /\ ~ In tag lr | None => True end) ->
  shape_ok s3.
Proof.
  intros SO H0 MT Hnew. pose proof SO as [N [F C]]. pose proof MT as [Hk Hg].
  assert (CH : forall c t, child_of s3 c t <-> (c = tag /\ new = Some t) \/ (c <> tag /\ child_of s c t)).
  { intros c t; unfold child_of; rewrite Hg; split.
    - intros [m [Hm Hp]]. destruct (dget s c) as [n|] eqn:Hc; [|discriminate].
      injection Hm as <-. cbn in Hp. destruct (teq_spec tag c) as [->|Hne]; [auto|].
      right; split; [congruence|eauto].
    - intros [[-> ->]|[Hne [n [Hn Hp]]]].
      + rewrite H0; eexists; split; [reflexivity|]. cbn; now rewrite teq_refl.
      + rewrite Hn; eexists; split; [reflexivity|]. cbn.
        destruct (teq_spec tag c); [congruence|exact Hp]. }
  split; [congruence|split].
  - intros t Ht. rewrite Hg in Ht. destruct (dget s t) as [n|] eqn:Hn; [|now destruct Ht].
    destruct (F t) as [l Hl]; [congruence|].
    destruct (moved_up s s3 tag (parent n0) new n0 SO MT H0 Hnew t l Hl) as [[_ H]|[l1 [l2 [_ [_ H]]]]]; eauto.
  - intros t m Hm. rewrite Hg in Hm. destruct (dget s t) as [n|] eqn:Hn; [|discriminate].
    injection Hm as <-. destruct (C t n Hn) as [C1 C2].
    set (ch := if opt_is (parent n0) t then remove1 tag (children n) else children n).
    assert (CH1 : NoDup ch /\ forall c, In c ch <-> c <> tag /\ child_of s c t).
    { unfold ch; destruct (opt_is (parent n0) t) eqn:P.
      - split; [now apply remove1_NoDup|]. intros c; rewrite remove1_In, C2 by exact C1; tauto.
      - split; [exact C1|]. intros c; rewrite C2; split; [|tauto]. intros Hc; split; [|exact Hc].
        intros ->. destruct Hc as [n' [Hn' Hp']]. rewrite H0 in Hn'; injection Hn' as <-.
        apply opt_is_spec in Hp'; congruence. }
    destruct CH1 as [D1 D2]. unfold children_right, moved; cbn [children]; fold ch.
    destruct (opt_is new t) eqn:P.
    + apply opt_is_spec in P. split.
      * apply NoDup_app_intro; [exact D1|constructor; [tauto|constructor]|].
        intros x Hx [<-|[]]; apply D2 in Hx; tauto.
      * intros c; rewrite in_app_iff, D2, CH; cbn. split; [intros [H|[<-|[]]]; auto|].
        intros [[-> _]|H]; auto.
    + split; [exact D1|]. intros c; rewrite D2, CH. split; [auto|]. intros [[_ Q]|H]; [|exact H].
      apply opt_is_spec in Q; congruence.
Qed.

Lemma moved_metric s s3 tag p0 new : moved_tree s s3 tag p0 new -> forall t,
  metric_at s t -> opt_is p0 t = false -> opt_is new t = false -> metric_at s3 t.
Proof.
  intros [Hk Hg] t M P Q m Hm. rewrite Hg in Hm. destruct (dget s t) as [n|] eqn:Hn; [|discriminate].
  injection Hm as <-. destruct (M n Hn) as [h [z [Hc R]]]. exists h, z.
  unfold moved; cbn [children height size]; rewrite P, Q. split; [|exact R].
  rewrite <- Hc. clear - Hg. induction (children n) as [|c l IH]; cbn; [reflexivity|].
  rewrite Hg. destruct (dget s c); [|reflexivity]. now rewrite IH.
Qed.

Lemma same_metric_shape s s' u : same_shape s s' -> dget s u <> None <-> dget s' u <> None.
Proof. intros [_ H]; specialize (H u); destruct (dget s u), (dget s' u); split; try tauto; congruence. Qed.

(** up to the metrics *)
Lemma change_parent_steps s tag n0 r lr :
  is_forest s -> dget s tag = Some n0 -> up s r lr -> ~ In tag lr ->
  exists s3, moved_tree s s3 tag (parent n0) (Some r) /\
    (forall q, parent n0 = Some q -> exists nq, dget s q = Some nq /\ q <> tag) /\
    forall s4, update_metrics (S (length s)) (Some r) s3 = (s4, Ok tt) ->
    m_change_parent tag (Some r) s = update_metrics (S (length s)) (parent n0) s4.
Proof.
  intros F H0 Hr Hni.
  set (s1 := match parent n0 with
             | None => s
             | Some q => match dget s q with
                         | Some nq => dset s q (set_children nq (remove1 tag (children nq)))
                         | None => s
                         end
             end).
  assert (P0 : forall q, parent n0 = Some q -> exists nq, dget s q = Some nq /\ q <> tag).
  { intros q Hq. destruct (F tag) as [l Hl]; [congruence|]. inversion Hl; subst; [congruence|].
    assert (n = n0) by congruence; subst n. assert (q0 = q) by congruence; subst q0.
    assert (Hq' : exists nq, dget s q = Some nq) by (match goal with Hu : up s q _ |- _ => inversion Hu; eauto end).
    destruct Hq' as [nq Hnq]; exists nq; split; [exact Hnq|]. intros ->.
    eapply up_not_in_tail; [exact H0|exact Hq|eassumption|].
    match goal with Hu : up s tag ?l0 |- _ => destruct (up_head _ _ _ Hu) as [l' ->]; now left end. }
  assert (E1 : (match parent n0 with
           | None => Ok s
           | Some q => match dget s q with
                       | None => Err KeyError
                       | Some nq => Ok (if mem_tag tag (children nq)
                                        then dset s q (set_children nq (remove1 tag (children nq)))
                                        else s)
                       end
           end) = Ok s1).
  { unfold s1; destruct (parent n0) as [q|] eqn:Hq; [|reflexivity].
    destruct (P0 q eq_refl) as [nq [Hnq _]]; rewrite Hnq.
    destruct (mem_tag tag (children nq)) eqn:Hm; [reflexivity|].
    rewrite (remove1_absent _ _ Hm), set_children_id, dset_id by exact Hnq; reflexivity. }
  assert (D1 : dkeys s1 = dkeys s /\ forall u, dget s1 u =
     match dget s u with
     | Some n => Some (if opt_is (parent n0) u then set_children n (remove1 tag (children n)) else n)
     | None => None end).
  { unfold s1; destruct (parent n0) as [q|] eqn:Hq.
    - destruct (P0 q eq_refl) as [nq [Hnq _]]; rewrite Hnq. split.
      + rewrite dkeys_dset; unfold dmem; now rewrite Hnq.
      + intros u; rewrite dget_dset; cbn [opt_is]. destruct (teq_spec q u) as [<-|]; [now rewrite Hnq|].
        now destruct (dget s u).
    - split; [reflexivity|]. intros u; cbn; now destruct (dget s u). }
  destruct D1 as [K1 D1].
  assert (Htag1 : dget s1 tag = Some n0).
  { rewrite D1, H0. destruct (opt_is (parent n0) tag) eqn:Q; [|reflexivity].
    apply opt_is_spec in Q. destruct (P0 _ Q) as [? [_ X]]; now destruct X. }
  set (s2 := dset s1 tag (set_children (set_parent n0 (Some r)) (children n0))).
  assert (Hrt : r <> tag) by (intros ->; destruct (up_head _ _ _ Hr) as [l' ->]; apply Hni; now left).
  assert (Hrn : exists nr, dget s r = Some nr) by (inversion Hr; eauto).
  destruct Hrn as [nr Hnr].
  assert (Hr2 : dget s2 r = Some (if opt_is (parent n0) r then set_children nr (remove1 tag (children nr)) else nr)).
  { unfold s2; rewrite dget_dset_other by congruence. rewrite D1, Hnr; reflexivity. }
  set (nr2 := if opt_is (parent n0) r then set_children nr (remove1 tag (children nr)) else nr) in *.
  set (s3 := dset s2 r (set_children nr2 (children nr2 ++ [tag]))).
  assert (MT : moved_tree s s3 tag (parent n0) (Some r)).
  { split.
    - unfold s3; rewrite dkeys_dset; unfold dmem; rewrite Hr2.
      unfold s2; rewrite dkeys_dset; unfold dmem; now rewrite Htag1.
    - intros u; unfold s3; rewrite dget_dset. destruct (teq_spec r u) as [<-|Hru].
      + rewrite Hnr. unfold moved; cbn [opt_is]; rewrite teq_refl.
        destruct (teq_spec tag r) as [|_]; [congruence|].
        unfold nr2; destruct (opt_is (parent n0) r); reflexivity.
      + unfold s2; rewrite dget_dset. destruct (teq_spec tag u) as [<-|Htu].
        * rewrite H0; unfold moved; cbn [opt_is]. rewrite teq_refl.
          destruct (teq_spec r tag); [congruence|].
          destruct (opt_is (parent n0) tag) eqn:Q; [|reflexivity].
          apply opt_is_spec in Q. destruct (P0 _ Q) as [? [_ X]]; now destruct X.
        * rewrite D1. destruct (dget s u) as [n|]; [|reflexivity].
          unfold moved; cbn [opt_is].
          destruct (teq_spec r u); [congruence|]. destruct (teq_spec tag u); [congruence|].
          destruct (opt_is (parent n0) u); destruct n; reflexivity. }
  exists s3. split; [exact MT|]. split; [exact P0|]. intros s4 U4.
  unfold m_change_parent; rewrite H0, E1, Htag1. fold s2. rewrite Hr2. fold s3. now rewrite U4.
Qed.
Theorem change_parent_ok s tag n0 r lr :
  tree_ok s -> dget s tag = Some n0 -> up s r lr -> ~ In tag lr ->
  exists s3 s', m_change_parent tag (Some r) s = (s', Ok tt) /\ tree_ok s' /\
    moved_tree s s3 tag (parent n0) (Some r) /\ same_shape s3 s'.
Proof.
  intros [SO M] H0 Hr Hni. pose proof SO as [N [F C]].
  destruct (change_parent_steps s tag n0 r lr F H0 Hr Hni) as [s3 [MT [P0 Steps]]].
  assert (SO3 : shape_ok s3).
  { eapply moved_shape; [exact SO|exact H0|exact MT|]. exists lr; auto. }
  assert (Len3 : length s3 = length s).
  { destruct MT as [Kk _]. apply (f_equal (@length K)) in Kk. unfold dkeys in Kk; now rewrite !map_length in Kk. }
  destruct (proj1 (proj2 SO3) r) as [lr3 Hr3].
  { rewrite (proj2 MT). inversion Hr as [? n Hn|? n ? ? Hn]; rewrite Hn; discriminate. }
  destruct (update_metrics_ok s3 r lr3 Hr3 SO3 (S (length s))) as [s4 [U4 [SS4 M4]]].
  { pose proof (up_length _ _ _ Hr3); lia. }
  assert (M4' : forall u, opt_is (parent n0) u = false -> metric_at s4 u).
  { intros u Hu. apply M4. destruct (teq_spec r u) as [<-|Hru].
    - right. destruct (up_head _ _ _ Hr3) as [l' ->]; now left.
    - left. eapply moved_metric; [exact MT|apply M|exact Hu|]. cbn; destruct (teq_spec r u); congruence. }
  pose proof (Steps s4 U4) as Unfold.
  destruct (parent n0) as [q|] eqn:Hq.
  - assert (SO4 : shape_ok s4) by (eapply same_shape_ok; eauto).
    destruct (P0 q eq_refl) as [nq [Hnq Hqt]].
    destruct (proj1 (proj2 SO4) q) as [lq4 Hq4].
    { apply (same_metric_shape s3 s4 q SS4). rewrite (proj2 MT), Hnq. discriminate. }
    assert (Len4 : length s4 = length s3).
    { destruct SS4 as [Kk _]. apply (f_equal (@length K)) in Kk. unfold dkeys in Kk; now rewrite !map_length in Kk. }
    destruct (update_metrics_ok s4 q lq4 Hq4 SO4 (S (length s))) as [s5 [U5 [SS5 M5]]].
    { pose proof (up_length _ _ _ Hq4); lia. }
    exists s3, s5; split; [now rewrite Unfold|]. split; [split|split].
    + eapply same_shape_ok; eauto.
    + intros u; apply M5. destruct (teq_spec q u) as [<-|Hqu].
      * right; destruct (up_head _ _ _ Hq4) as [l' ->]; now left.
      * left; apply M4'. cbn; destruct (teq_spec q u); congruence.
    + exact MT.
    + eapply same_shape_trans; eauto.
  - exists s3, s4; split; [rewrite Unfold; reflexivity|]. split; [split|split].
    + eapply same_shape_ok; eauto.
    + intros u; now apply M4'.
    + exact MT.
    + exact SS4.
Qed.

(** * get_split *)
Lemma best_loop_ok s l : (forall c, In c l -> dget s c <> None) -> forall i best,
  (match best with Some b => snd b < i | None => True end) -> best <> None \/ l <> [] ->
  exists b, best_loop s i best l = Ok b /\ (snd b < i + length l).
Proof.
  induction l as [|c l IH]; intros Hl i best Hb Hne; cbn [best_loop].
  - destruct best as [b|]; [|destruct Hne as [[]|[]]; reflexivity].
    exists b; split; [reflexivity|cbn; lia].
  - destruct (dget s c) as [n|] eqn:Hc; [|exfalso; apply (Hl c); [now left|exact Hc]].
    match goal with |- context [best_loop s (S i) (Some ?b) l] => set (b0 := b) end.
    destruct (IH ltac:(intros; apply Hl; now right) (S i) (Some b0)) as [b [-> Hlt]].
    + unfold b0; destruct best as [b|]; [|cbn; lia]. destruct (triple_ltb b _); cbn; lia.
    + left; discriminate.
    + exists b; split; [reflexivity|cbn; lia].
Qed.

Lemma child_metrics_bound s l h z : child_metrics s l = Ok (h, z) -> forall c n, In c l -> dget s c = Some n ->
  height n <= h.
Proof.
  revert h z; induction l as [|c l IH]; intros h z H c' n' Hin Hn'; [destruct Hin|].
  cbn in H. destruct (dget s c) as [m|] eqn:Hc; [|discriminate].
  destruct (child_metrics s l) as [[h0 z0]|]; [|discriminate]. cbn in H; injection H as <- <-.
  destruct Hin as [<-|Hin]; [assert (n' = m) by congruence; subst; lia|].
  specialize (IH _ _ eq_refl _ _ Hin Hn'); lia.
Qed.

Lemma max_height_ge s t n : dget s t = Some n -> height n <= max_height s.
Proof.
  unfold max_height, dvalues; induction s as [|[k v] s IH]; cbn; [discriminate|].
  destruct (teq k t); intros H; [injection H as ->; lia|]. specialize (IH H). lia.
Qed.

Lemma down_snoc s t l c : down s t l -> child_of s c (last l t) -> dget s c <> None -> down s t (l ++ [c]).
Proof.
  induction 1 as [t Ht|t d l Hd H IH]; intros Hc Hn; cbn [app].
  - eapply down_step; [exact Hc|now apply down_one].
  - eapply down_step; [exact Hd|]. apply IH; [|exact Hn].
    destruct l; [inversion H|]. cbn [last] in *. clear -Hc. destruct l; [exact Hc|].
    revert Hc; cbn. generalize k0 as a; induction l as [|y l IHl]; intros a Hc; [exact Hc|apply (IHl y), Hc].
Qed.

Lemma last_dflt {A} (a : A) l d d' : last (a :: l) d = last (a :: l) d'.
Proof. revert a; induction l as [|b l IH]; intros a; [reflexivity|exact (IH b)]. Qed.
(** the child that [get_split] follows *)
Definition rank_le (a b : nat * nat) : Prop := fst a < fst b \/ (fst a = fst b /\ snd a <= snd b).
Lemma rank_le_trans a b c : rank_le a b -> rank_le b c -> rank_le a c.
Proof. unfold rank_le; lia. Qed.
Lemma rank_le_refl a : rank_le a a.
Proof. unfold rank_le; lia. Qed.
Definition rank (n : node K) : nat * nat := (height n, order_id n).
Definition best_child s (t c : K) : Prop :=
  exists nc, dget s c = Some nc /\ parent nc = Some t /\
  forall c' n', dget s c' = Some n' -> parent n' = Some t -> rank_le (rank n') (rank nc).

Lemma best_loop_max s l : forall i best b, best_loop s i best l = Ok b ->
  (forall c n, In c l -> dget s c = Some n -> rank_le (rank n) (fst b)) /\
  (forall b0, best = Some b0 -> rank_le (fst b0) (fst b)) /\
  (best = Some b \/ exists j c n, nth_error l j = Some c /\ dget s c = Some n /\ b = (height n, order_id n, i + j)).
Proof.
  induction l as [|c l IH]; intros i best b H; cbn [best_loop] in H.
  - destruct best as [b'|]; [injection H as ->|discriminate].
    split; [intros ? ? []|]. split; [intros b0 [= ->]; apply rank_le_refl|now left].
  - destruct (dget s c) as [n|] eqn:Hc; [|discriminate].
    apply IH in H as [H1 [H2 H3]]. specialize (H2 _ eq_refl).
    assert (Hn : rank_le (rank n) (fst b)).
    { eapply rank_le_trans; [|exact H2]. destruct best as [[[x y] z]|]; [|apply rank_le_refl].
      unfold triple_ltb; destruct (_ || _) eqn:Q; [apply rank_le_refl|]. unfold rank_le, rank; cbn.
      apply orb_false_iff in Q as [Q1 Q2]. apply Nat.ltb_ge in Q1.
      apply andb_false_iff in Q2 as [Q2|Q2]; [apply Nat.eqb_neq in Q2; lia|].
      apply orb_false_iff in Q2 as [Q2 _]. apply Nat.ltb_ge in Q2. lia. }
    split; [|split].
    + intros c' n' [<-|Hin] Hn'; [assert (n' = n) by congruence; subst; exact Hn|eauto].
    + intros b0 ->. eapply rank_le_trans; [|exact H2].
      destruct b0 as [[x y] z]. unfold triple_ltb; destruct (_ || _) eqn:Q; [|apply rank_le_refl]. unfold rank_le; cbn.
      apply orb_true_iff in Q as [Q|Q]; [apply Nat.ltb_lt in Q; lia|].
      apply andb_true_iff in Q as [Q1 Q]. apply Nat.eqb_eq in Q1.
      apply orb_true_iff in Q as [Q|Q]; [apply Nat.ltb_lt in Q; lia|].
      apply andb_true_iff in Q as [Q _]. apply Nat.eqb_eq in Q. lia.
    + destruct H3 as [H3|[j [c' [n' [Hj [Hn' Hb]]]]]].
      * injection H3 as H3. destruct best as [b0|].
        -- destruct (triple_ltb b0 _).
           ++ right; exists 0, c, n. repeat split; auto. rewrite <- H3, Nat.add_0_r; reflexivity.
           ++ left; congruence.
        -- right; exists 0, c, n. repeat split; auto. rewrite <- H3, Nat.add_0_r; reflexivity.
      * right; exists (S j), c', n'. repeat split; auto. rewrite Hb; f_equal; lia.
Qed.

(** the way that [get_split] takes *)
Inductive split_way s : nat -> K -> list K -> Prop :=
| way_stop d t n : dget s t = Some n -> height n <= d -> split_way s d t [t]
| way_go d t n c l : dget s t = Some n -> d < height n -> best_child s t c -> split_way s (S d) c l ->
    split_way s d t (t :: l).

Lemma best_child_height s t n c nc : tree_ok s -> dget s t = Some n -> best_child s t c -> dget s c = Some nc ->
  height n = height nc + 1.
Proof.
  intros [[N [F C]] M] Hn [nc' [Hc [Hp Hmax]]] Hnc. assert (nc' = nc) by congruence; subst nc'.
  destruct (M t n Hn) as [h [z [Hm [-> _]]]]. f_equal.
  assert (Hin : In c (children n)) by (apply (C t n Hn); exists nc; auto).
  apply Nat.le_antisymm; [|eapply child_metrics_bound; eauto].
  assert (Hall : forall c' n', In c' (children n) -> dget s c' = Some n' -> height n' <= height nc).
  { intros c' n' Hi Hn'. apply (C t n Hn) in Hi as [m [Hm' Hp']]. assert (m = n') by congruence; subst m.
    destruct (Hmax c' n' Hn' Hp') as [Q|[Q _]]; cbn in Q; lia. }
  clear -Hm Hall. revert h z Hm; induction (children n) as [|c' l IH]; intros h z Hm; cbn in Hm; [injection Hm as <- _; lia|].
  destruct (dget s c') as [m|] eqn:Hc'; [|discriminate].
  destruct (child_metrics s l) as [[h0 z0]|] eqn:Hl; [|discriminate]. cbn in Hm; injection Hm as <- _.
  specialize (IH ltac:(intros; eapply Hall; [right|]; eauto) _ _ eq_refl).
  pose proof (Hall c' m (or_introl eq_refl) Hc'). lia.
Qed.

Lemma split_loop_ok s : tree_ok s -> forall fuel depth tag n path,
  dget s tag = Some n -> 1 <= depth -> height n <= fuel + depth ->
  exists l, split_loop fuel depth s tag n path = Ok (last l tag, path ++ tl l) /\ split_way s depth tag l.
Proof.
  intros T; pose proof T as [SO M]; pose proof SO as [N [F C]].
  induction fuel as [|fuel IH]; intros depth tag n path Hn H1 Hf; cbn [split_loop].
  - rewrite (proj2 (Nat.ltb_ge _ _)) by lia. exists [tag]; cbn; rewrite app_nil_r. split; [reflexivity|].
    eapply way_stop; [exact Hn|lia].
  - destruct (depth <? height n) eqn:L.
    2: { apply Nat.ltb_ge in L. exists [tag]; cbn; rewrite app_nil_r. split; [reflexivity|]. eapply way_stop; eauto. }
    apply Nat.ltb_lt in L. destruct (M tag n Hn) as [h [z [Hm [Hh Hz]]]].
    assert (Hne : children n <> []).
    { intros Q; rewrite Q in Hm; cbn in Hm; injection Hm as <- _; lia. }
    assert (Hex : forall c, In c (children n) -> dget s c <> None).
    { intros c Hc; apply (C tag n Hn) in Hc as [m [Hm' _]]; congruence. }
    destruct (best_loop_ok s (children n) Hex 0 None I (or_intror Hne)) as [b [Hbl Hb]].
    rewrite Hbl. destruct (best_loop_max s (children n) 0 None b Hbl) as [B1 [_ [B3|[j [t [n' [Hj [Hn' Hbe]]]]]]]]; [discriminate|].
    cbn [bind]. rewrite Hbe; cbn [snd]. rewrite Nat.add_0_l, Hj, Hn'.
    assert (Ht : In t (children n)) by (eapply nth_error_In; eauto).
    pose proof (child_metrics_bound _ _ _ _ Hm _ _ Ht Hn').
    assert (BC : best_child s tag t).
    { exists n'. apply (C tag n Hn) in Ht as Hct. destruct Hct as [m [Hm' Hp]]. assert (m = n') by congruence; subst m.
      repeat split; auto. intros c' m Hc' Hp'. specialize (B1 c' m). rewrite Hbe in B1. apply B1; [|exact Hc'].
      apply (C tag n Hn); exists m; auto. }
    destruct (IH (S depth) t n' (path ++ [t]) Hn') as [l [Hl Hw]]; [lia|lia|].
    assert (Hl' : exists l', l = t :: l') by (inversion Hw; subst; eauto). destruct Hl' as [l' ->].
    exists (tag :: t :: l'). split; [|eapply way_go; eauto].
    rewrite Hl. cbn [tl]. rewrite <- app_assoc; cbn [app]. f_equal. f_equal.
    change (last (tag :: t :: l') tag) with (last (t :: l') tag).
    apply last_dflt.
Qed.

Lemma split_way_down s d t l : split_way s d t l -> down s t l.
Proof.
  induction 1 as [d t n Hn _|d t n c l Hn _ [nc [Hc [Hp _]]] _ IH]; [apply down_one; congruence|].
  eapply down_step; [exists nc; eauto|exact IH].
Qed.
(** it goes down a longest way and stops at its middle *)
Lemma split_way_middle s d t l : tree_ok s -> split_way s d t l -> forall n, dget s t = Some n ->
  d <= height n + 1 ->
  exists n', dget s (last l t) = Some n' /\ length l + height n' = height n + 1 /\
    height n' <= d + length l - 1 <= height n' + 1.
Proof.
  intros T; induction 1 as [d t n0 Hn0 Hd|d t n0 c l Hn0 Hd Bc Hw IH]; intros n Hn H1.
  - assert (n0 = n) by congruence; subst. exists n; cbn; repeat split; auto; lia.
  - assert (n0 = n) by congruence; subst n0. pose proof Bc as [nc [Hc _]].
    pose proof (best_child_height s t n c nc T Hn Bc Hc) as Hh.
    destruct (IH nc Hc) as [n' [Hn' [L1 L2]]]; [lia|]. exists n'.
    assert (Hl' : exists l', l = c :: l') by (inversion Hw; subst; eauto). destruct Hl' as [l' ->].
    assert (Hlast : last (t :: c :: l') t = last (c :: l') c).
    { change (last (t :: c :: l') t) with (last (c :: l') t).
      apply last_dflt. }
    rewrite Hlast. cbn [length] in *. repeat split; auto; lia.
Qed.

Theorem get_split_way s tag n : tree_ok s -> dget s tag = Some n ->
  exists p, m_get_split s tag = Ok (last p tag, p) /\ split_way s 1 tag p.
Proof.
  intros T Hn; unfold m_get_split; rewrite Hn.
  destruct (split_loop_ok s T (max_height s) 1 tag n [tag] Hn) as [l [Hl Hw]]; [lia| |].
  { pose proof (max_height_ge _ _ _ Hn); lia. }
  exists l; split; [|exact Hw]. rewrite Hl. inversion Hw; subst; reflexivity.
Qed.
Theorem get_split_ok s tag n : tree_ok s -> dget s tag = Some n ->
  exists t p n', m_get_split s tag = Ok (t, p) /\ down s tag p /\ last p tag = t /\
    dget s t = Some n' /\ length p + height n' = height n + 1 /\ height n' <= length p <= height n' + 1.
Proof.
  intros T Hn. destruct (get_split_way s tag n T Hn) as [p [Hp Hw]].
  assert (H1 : 1 <= height n) by (destruct T as [_ M]; destruct (M tag n Hn) as [h [z [_ [-> _]]]]; lia).
  destruct (split_way_middle s 1 tag p T Hw n Hn) as [n' [Hn' [L1 L2]]]; [lia|].
  exists (last p tag), p, n'. split; [exact Hp|]. split; [eapply split_way_down; eauto|].
  repeat split; auto; lia.
Qed.

(** * Exact metrics *)
Lemma empty_ok : tree_ok [].
Proof.
  split; [split; [constructor|split]|]; [intros t Ht; now destruct Ht|intros t n H; discriminate|intros t n H; discriminate].
Qed.
End P.
