(** The square-root bound on the ways down a tree of versions.

    A tree whose longest way has length H holds a comb of ceil(H/2) teeth: its root
    has two children, one with a way of length ceil(H/2)-1 below it, the other
    holding a comb of one tooth less, and so on.  Such a comb has quadratically many
    nodes.  An add puts the new root over the old one and over the subtree cut off
    at the middle of a longest way, which keeps this up. *)
From Coq Require Import Lia.
From Verif Require Import Base Tree SpecTree TreeProofs TreeExact VersionsInv.
Local Open Scope nat_scope.

Section Comb.
Context {K : Type} {E : Teq K} {O : TeqOk K}.
Implicit Type s : nodes K.

Definition tall s (t : K) (k : nat) : Prop := exists l, down s t l /\ k <= length l.

Inductive comb s : nat -> K -> Prop :=
| comb_one k t : k <= 1 -> dget s t <> None -> comb s k t
| comb_more k t c1 c2 : child_of s c1 t -> child_of s c2 t -> c1 <> c2 -> tall s c2 k -> comb s k c1 ->
    dget s t <> None -> comb s (S k) t.

Lemma comb_less s k t : comb s k t -> forall j, j <= k -> comb s j t.
Proof.
  induction 1 as [k t Hk Ht|k t c1 c2 H1 H2 Hn H3 H IH Ht]; intros j Hj.
  - apply comb_one; [lia|exact Ht].
  - destruct j as [|j]; [apply comb_one; [lia|exact Ht]|].
    destruct H3 as [l [Hl Hlen]].
    apply (comb_more s j t c1 c2 H1 H2 Hn); [exists l; split; [exact Hl|lia]|apply IH; lia|exact Ht].
Qed.

(** the number of nodes *)
Lemma down_distinct s : is_forest s -> forall t l, down s t l ->
  NoDup l /\ forall x, In x l -> below s t x.
Proof.
  intros F t l. induction 1 as [t Ht|t c l Hc H [N B]].
  - split; [repeat constructor; intros []|]. intros x [<-|[]]. now apply below_refl.
  - assert (Ht : dget s t <> None).
    { destruct Hc as [n [Hn Hp]]. destruct (F c) as [lc Hu]; [congruence|]. inversion Hu; subst; [congruence|].
      assert (q = t) by congruence; subst. match goal with U : up s t _ |- _ => exact (up_known _ _ _ U) end. }
    destruct (F t Ht) as [lt Ut]. split.
    + apply NoDup_cons; [|exact N]. intros Hin. exact (not_below_child _ _ _ _ Ut Hc (B _ Hin)).
    + intros x [<-|Hx]; [now apply below_refl|eapply below_child; eauto].
Qed.

Lemma comb_size s : is_forest s -> forall k t, comb s k t ->
  exists l, NoDup l /\ (forall x, In x l -> below s t x) /\ k * (k + 1) <= 2 * length l.
Proof.
  intros F k t. induction 1 as [k t Hk Ht|k t c1 c2 H1 H2 Hn [p [Hp Hlen]] H IH Ht].
  - exists [t]. split; [repeat constructor; intros []|]. split; [|cbn; destruct k as [|[|]]; cbn; lia].
    intros x [<-|[]]. now apply below_refl.
  - destruct IH as [l [N [B L]]]. destruct (down_distinct s F _ _ Hp) as [N2 B2]. destruct (F t Ht) as [lt Ut].
    exists (t :: l ++ p). split; [|split].
    + apply NoDup_cons.
      * intros Hin. apply in_app_or in Hin as [Hin|Hin].
        -- exact (not_below_child _ _ _ _ Ut H1 (B _ Hin)).
        -- exact (not_below_child _ _ _ _ Ut H2 (B2 _ Hin)).
      * apply NoDup_app_intro; auto. intros x Hx1 Hx2. apply Hn.
        pose proof (B _ Hx1) as [q [Hq El]].
        destruct (F x) as [lx Ux]; [subst x; exact (down_last_in _ _ _ Hq)|].
        exact (below_disjoint _ _ _ _ _ _ Ux H1 H2 (B _ Hx1) (B2 _ Hx2)).
    + intros x [<-|Hx]; [now apply below_refl|]. apply in_app_or in Hx as [Hx|Hx];
      [exact (below_child _ _ _ _ H1 (B _ Hx))|exact (below_child _ _ _ _ H2 (B2 _ Hx))].
    + cbn [length]. rewrite app_length. nia.
Qed.

(** * Cutting *)
(** [s'] is [s] with [h] and [x] moved under the new node [tag] *)
Definition put_over s s' (tag h x : K) : Prop :=
  (forall c q, child_of s' c q <-> (q = tag /\ (c = h \/ c = x)) \/ (c <> h /\ c <> x /\ child_of s c q)) /\
  (forall t, dget s' t <> None <-> t = tag \/ dget s t <> None).

Lemma keep_child s s' tag h x c q : put_over s s' tag h x -> child_of s c q -> c <> h -> c <> x -> child_of s' c q.
Proof. intros [P _] H H1 H2. apply P; right; auto. Qed.

(** ways and combs without [h] and [x] below their top stay *)
Lemma keep_down s s' tag h x t l : put_over s s' tag h x -> down s t l ->
  ~ In h (tl l) -> ~ In x (tl l) -> down s' t l.
Proof.
  intros P. induction 1 as [t Ht|t c l Hc H IH]; cbn [tl]; intros N1 N2.
  - apply down_one, P; auto.
  - destruct (down_first _ _ _ H) as [l' ->]. eapply down_step.
    + eapply keep_child; eauto; intros ->; [apply N1|apply N2]; now left.
    + apply IH; cbn [tl]; intros Q; [apply N1|apply N2]; now right.
Qed.
Lemma comb_keep s s' tag h x k t : put_over s s' tag h x -> is_forest s -> comb s k t ->
  (forall c, below s t c -> c <> t -> c <> h /\ c <> x) -> comb s' k t.
Proof.
  intros P F. induction 1 as [k t Hk Ht|k t c1 c2 H1 H2 Hn [p [Hp Hlen]] H IH Ht]; intros Q.
  - apply comb_one; [exact Hk|apply P; auto].
  - destruct (F t Ht) as [lt Ut].
    assert (Below : forall c d, child_of s c t -> below s c d -> d <> h /\ d <> x).
    { intros c d Hc Hd. apply Q; [eapply below_child; eauto|].
      intros ->. exact (not_below_child _ _ _ _ Ut Hc Hd). }
    assert (Kn : forall c q, child_of s c q -> dget s c <> None) by (intros c q [n [A _]]; congruence).
    assert (Self : forall c, child_of s c t -> c <> h /\ c <> x).
    { intros c Hc. apply (Below c c Hc). apply below_refl; eauto. }
    apply (comb_more s' k t c1 c2).
    + apply (keep_child _ _ _ _ _ _ _ P H1); apply (Self _ H1).
    + apply (keep_child _ _ _ _ _ _ _ P H2); apply (Self _ H2).
    + exact Hn.
    + exists p; split; [|exact Hlen]. destruct (down_distinct s F _ _ Hp) as [_ B2].
      assert (Far : forall y, In y (tl p) -> y <> h /\ y <> x).
      { intros y Hin. apply (Below c2 y H2), B2. destruct p; [exact Hin|right; exact Hin]. }
      eapply keep_down; [exact P|exact Hp| |]; intros Hin; apply Far in Hin as [A B]; congruence.
    + apply IH. intros d Hd _. exact (Below c1 d H1 Hd).
    + apply P; auto.
Qed.

(** above the depth of the cut nothing is lost *)
Lemma depth_way s t l p : up s t l -> down s t p -> forall i y, nth_error p i = Some y ->
  exists ly, up s y ly /\ length ly = length l + i.
Proof.
  intros U D; revert l U; induction D as [t Ht|t c p Hc D IH]; intros l U i y Hi.
  - destruct i as [|[|i]]; cbn in Hi; try discriminate. injection Hi as <-. exists l; split; [exact U|lia].
  - destruct i as [|i]; cbn in Hi.
    + injection Hi as <-. exists l; split; [exact U|lia].
    + destruct Hc as [n [Hn Hp]]. destruct (IH (c :: l) (up_step _ _ _ _ _ Hn Hp U) i y Hi) as [ly [Uy Ly]].
      exists ly; split; [exact Uy|cbn in Ly; lia].
Qed.

Lemma down_firstn s t p k : down s t p -> is_forest s -> 1 <= k -> down s t (firstn k p).
Proof.
  intros H F; revert k; induction H as [t Ht|t c p Hc H IH]; intros k Hk.
  - destruct k as [|k]; [lia|]. cbn. rewrite firstn_nil. now apply down_one.
  - destruct k as [|k]; [lia|]. cbn [firstn]. destruct k as [|k].
    + cbn. apply down_one.
      destruct Hc as [n [Hn Hp]]. destruct (F c) as [lc Hu]; [congruence|]. inversion Hu; subst; [congruence|].
      assert (q = t) by congruence; subst. match goal with U : up s t _ |- _ => exact (up_known _ _ _ U) end.
    + eapply down_step; [exact Hc|]. apply IH; lia.
Qed.

Lemma in_tl_nth {A} (l : list A) x : In x (tl l) -> exists i, nth_error l (S i) = Some x.
Proof. destruct l as [|a l]; [intros []|]. cbn [tl]. intros H. apply In_nth_error in H as [i Hi]. exists i; exact Hi. Qed.

Lemma nth_last {A} (l : list A) : forall a d, nth_error (a :: l) (length l) = Some (last (a :: l) d).
Proof.
  induction l as [|b l IH]; intros a d; [reflexivity|]. rewrite last_cons. cbn [length nth_error]. apply IH.
Qed.

(** a comb at depth [length l] under a cut at depth [d] keeps the teeth above the cut *)
Lemma comb_cut s s' tag h x d : put_over s s' tag h x -> is_forest s -> up s h [h] ->
  (exists lx, up s x lx /\ length lx = d) ->
  forall k t, comb s k t -> forall l, up s t l -> comb s' (min k (d - length l)) t.
Proof.
  intros P F Uh [lx [Ux Lx]] k t.
  induction 1 as [k t Hk Ht|k t c1 c2 H1 H2 Hn [p [Hp Hlen]] H IH Ht]; intros l U.
  - apply comb_one; [lia|apply P; auto].
  - destruct (Nat.le_gt_cases (min (S k) (d - length l)) 1) as [Hs|Hs]; [apply comb_one; [exact Hs|apply P; auto]|].
    assert (Hl1 : 1 <= length l) by (destruct (up_head _ _ _ U) as [? ->]; cbn; lia).
    assert (Uc : forall c, child_of s c t -> up s c (c :: l)) by (intros c [n [A B]]; eapply up_step; eauto).
    assert (Ok : forall y ly, up s y ly -> 1 < length ly < d -> y <> h /\ y <> x).
    { intros y ly Uy Ly; split; intros ->.
      - pose proof (up_fun _ _ _ Uy _ Uh) as ->. cbn in Ly; lia.
      - pose proof (up_fun _ _ _ Uy _ Ux) as ->. lia. }
    assert (Kc : forall c, child_of s c t -> child_of s' c t).
    { intros c Hc. destruct (Ok c (c :: l) (Uc c Hc)) as [A B]; [cbn; lia|]. eapply keep_child; eauto. }
    assert (Hmin : min (S k) (d - length l) = S (min k (d - length (c1 :: l)))) by (cbn [length]; lia).
    rewrite Hmin. eapply comb_more with (c1 := c1) (c2 := c2).
    + apply Kc, H1.
    + apply Kc, H2.
    + exact Hn.
    + set (m := min k (d - length (c1 :: l))). exists (firstn m p).
      assert (Hm : 1 <= m) by (unfold m; cbn [length]; lia).
      split; [|rewrite firstn_length; unfold m; cbn [length]; lia].
      assert (Far : forall y, In y (tl (firstn m p)) -> y <> h /\ y <> x).
      { intros y Hin. apply in_tl_nth in Hin as [i Hi].
        assert (Hi2 : S i < m).
        { assert (Q : S i < length (firstn m p)) by (apply nth_error_Some; congruence). rewrite firstn_length in Q; lia. }
        destruct (depth_way s c2 (c2 :: l) (firstn m p) (Uc _ H2) (down_firstn s _ _ m Hp F Hm) (S i) y Hi) as [ly [Uy Ly]].
        apply (Ok y ly Uy). cbn [length] in Ly. unfold m in Hi2; cbn [length] in Hi2. lia. }
      eapply keep_down; [exact P|apply down_firstn; auto| |]; intros Hin; apply Far in Hin as [A B]; congruence.
    + apply IH, Uc, H1.
    + apply P; auto.
Qed.

(** * The invariant *)
Definition combed s : Prop := forall t n, dget s t = Some n -> parent n = None ->
  forall l, down s t l -> comb s (Nat.div2 (S (length l))) t.

Lemma combed_same s s' : (forall c q, child_of s' c q <-> child_of s c q) ->
  (forall t, dget s t <> None -> dget s' t <> None) ->
  (forall t n, dget s' t = Some n -> parent n = None ->
     (exists m, dget s t = Some m /\ parent m = None) \/ (forall c, ~ child_of s c t)) ->
  combed s -> combed s'.
Proof.
  intros Hc Hk Ho I t n Hn Hp l Hl.
  destruct (Ho t n Hn Hp) as [[m [Hm Hpm]]|Q].
  - assert (Dn : forall t0 l0, down s' t0 l0 -> forall m0, dget s t0 = Some m0 -> down s t0 l0).
    { clear -Hc. induction 1 as [t0 H0|t0 c l0 Hc0 H0 IH]; intros m0 Hm0; [apply down_one; congruence|].
      apply Hc in Hc0. pose proof Hc0 as [nc [Hnc _]]. eapply down_step; eauto. }
    assert (Cb : forall k t0, comb s k t0 -> comb s' k t0).
    { induction 1 as [k t0 H0 H1|k t0 c1 c2 H1 H2 H3 [p [H4 H4']] H5 IH H6]; [apply comb_one; auto|].
      eapply comb_more; eauto; try (now apply Hc). exists p; split; [|exact H4'].
      clear -H4 Hc Hk. induction H4 as [t0 H0|t0 c l0 Hc0 H0 IH]; [apply down_one; auto|].
      eapply down_step; [apply Hc; exact Hc0|exact IH]. }
    apply Cb. eapply I; eauto.
  - inversion Hl as [? H0|? c l' Hc0 H0]; subst; [apply comb_one; cbn; auto|].
    exfalso; apply Hc in Hc0; exact (Q _ Hc0).
Qed.

Lemma root_up s t n : dget s t = Some n -> parent n = None -> up s t [t].
Proof. intros; eapply up_root; eauto. Qed.
Lemma root_of_below s r n d l : dget s r = Some n -> parent n = None -> below s r d -> up s d l -> last l d = r.
Proof.
  intros Hr Hp [p [Hd El]] Hu. destruct (down_up _ _ _ Hd d l El Hu) as [l1 [lt [-> [Ut _]]]].
  rewrite (up_fun _ _ _ Ut _ (root_up _ _ _ Hr Hp)). now rewrite last_last.
Qed.

Lemma half_le a b : a <= b -> Nat.div2 a <= Nat.div2 b.
Proof. intros H. rewrite !Nat.div2_div. apply Nat.div_le_mono; lia. Qed.
Lemma half_bounds a : 2 * Nat.div2 a <= a <= 2 * Nat.div2 a + 1.
Proof.
  rewrite Nat.div2_div. pose proof (Nat.div_mod a 2 ltac:(lia)). pose proof (Nat.mod_upper_bound a 2 ltac:(lia)). lia.
Qed.

Lemma combed_put s s' tag h n p : tree_ok s -> is_forest s' -> dget s tag = None -> dget s h = Some n -> parent n = None ->
  split_way s 1 h p -> put_over s s' tag h (last p h) ->
  (forall t m, t <> tag -> dget s' t = Some m -> parent m = None -> exists k, dget s t = Some k /\ parent k = None) ->
  combed s -> combed s'.
Proof.
  intros T F' Htag Hh Hph W P Ro I.
  pose proof (tree_ok_exact _ T) as [F X]. set (x := last p h) in *.
  assert (Hh1 : 1 <= height n).
  { destruct (X h n Hh) as [_ [[_ Hm] _]]. specialize (Hm [h] ltac:(apply down_one; congruence)). exact Hm. }
  destruct (split_way_middle s 1 h p T W n Hh) as [nx [Hnx [L1 L2]]]; [lia|]. fold x in Hnx.
  pose proof (split_way_down _ _ _ _ W) as Hd.
  pose proof (root_up _ _ _ Hh Hph) as Uh.
  (* every way of the new trees, but for the new root, is an old one *)
  assert (Old : forall t l, down s' t l -> t <> tag -> dget s t <> None /\ down s t l).
  { induction 1 as [t Ht|t c l Hc Hl IH]; intros Hne.
    - apply P in Ht as [->|Ht]; [congruence|]. split; [exact Ht|now apply down_one].
    - apply P in Hc as [[-> _]|[_ [_ Hc]]]; [congruence|].
      pose proof Hc as [nc [Hnc Hpc]].
      assert (Hct : c <> tag) by (intros ->; congruence).
      destruct (IH Hct) as [_ D]. split; [|eapply down_step; eauto].
      destruct (F c) as [lc Uc]; [congruence|]. inversion Uc; subst; [congruence|].
      assert (q = t) by congruence; subst. eapply up_known; eauto. }
  assert (Ux : exists lx, up s x lx /\ length lx = length p).
  { destruct (depth_way s h [h] p Uh Hd (length p - 1) x) as [lx [U L]].
    - destruct (down_first _ _ _ Hd) as [p' Ep]. unfold x. rewrite Ep.
      cbn [length]. rewrite Nat.sub_succ, Nat.sub_0_r. apply nth_last.
    - exists lx; split; [exact U|]. rewrite L. destruct (down_first _ _ _ Hd) as [p' ->]. cbn; lia. }
  intros t m Hm Hpm l Hl. destruct (teq_spec t tag) as [->|Ht].
  - (* the new root *)
    assert (Hlen : length l <= height n + 1).
    { inversion Hl as [? H0|? c l' Hc H0]; subst; [cbn; lia|]. cbn [length].
      apply P in Hc as [[_ Hc]|[_ [_ Hc]]].
      - assert (Hct : c <> tag).
        { intros ->. destruct Hc as [Q|Q]; rewrite <- Q in *; congruence. }
        destruct (Old _ _ H0 Hct) as [_ D]. destruct Hc as [Q|Q]; rewrite Q in D.
        + destruct (X h n Hh) as [_ [[_ Hmax] _]]. apply Hmax in D. lia.
        + destruct (X x nx Hnx) as [_ [[_ Hmax] _]]. apply Hmax in D. lia.
      - destruct Hc as [nc [Hnc Hpc]]. destruct (F c) as [lc Uc]; [congruence|]. inversion Uc; subst; [congruence|].
        assert (q = tag) by congruence; subst. exfalso. eapply up_known; eauto. }
    destruct (teq_spec x h) as [Hx|Hx].
    + (* a tree of one node *)
      apply comb_one; [|congruence].
      assert (Hp1 : length p = 1).
      { destruct Ux as [lx [U L]]. rewrite Hx in U. rewrite (up_fun _ _ _ U _ Uh) in L. cbn in L; lia. }
      pose proof (half_bounds (S (length l))). assert (Q : nx = n) by congruence. rewrite Q in *. lia.
    + assert (Hp2 : 2 <= length p).
      { destruct Ux as [lx [U L]]. destruct (up_head _ _ _ U) as [lx' ->].
        destruct lx'; [|cbn in L; lia].
        exfalso; apply Hx. destruct (down_up _ _ _ Hd x [x] eq_refl U) as [l1 [lt [E1 [Ut _]]]].
        pose proof (up_fun _ _ _ Ut _ Uh) as ->. destruct l1 as [|? [|]]; cbn in E1; congruence. }
      apply (comb_less s' (length p)).
      2: { pose proof (half_bounds (S (length l))). lia. }
      destruct (length p) as [|d] eqn:Ed; [lia|].
      eapply comb_more with (c1 := h) (c2 := x).
      * apply P; left; auto.
      * apply P; left; auto.
      * congruence.
      * destruct (X x nx Hnx) as [_ [[[q [Hq Lq]] _] _]]. exists q; split; [|lia].
        destruct Ux as [lx [U Lx]].
        assert (Far : forall y, In y (tl q) -> y <> h /\ y <> x).
        { intros y Hin. apply in_tl_nth in Hin as [i Hi].
          destruct (depth_way s x lx q U Hq (S i) y Hi) as [ly [Uy Ly]]. split; intros ->.
          - pose proof (up_fun _ _ _ Uy _ Uh) as ->. cbn in Ly; lia.
          - pose proof (up_fun _ _ _ Uy _ U) as ->. lia. }
        eapply keep_down; [exact P|exact Hq| |]; intros Hin; apply Far in Hin as [A B]; congruence.
      * destruct (X h n Hh) as [_ [[[q [Hq Lq]] _] _]].
        pose proof (I h n Hh Hph q Hq) as Cb.
        pose proof (comb_cut s s' tag h x (S d) P F Uh Ux _ _ Cb [h] Uh) as Cc. cbn [length] in Cc.
        eapply comb_less; [exact Cc|]. pose proof (half_bounds (S (length q))). lia.
      * congruence.
  - (* the other roots *)
    destruct (Ro t m Ht Hm Hpm) as [k [Hk Hpk]]. destruct (Old _ _ Hl Ht) as [_ D].
    assert (Hth : t <> h).
    { intros ->. assert (Q : child_of s' h tag) by (apply P; left; auto).
      destruct Q as [n' [Hn' Hp']]. congruence. }
    eapply comb_keep; [exact P|exact F|eapply I; eauto|].
    intros c [q [Hq Eq]] Hct.
    destruct (F c) as [lc Uc]; [subst c; exact (down_last_in _ _ _ Hq)|].
    pose proof (root_of_below s t k c lc Hk Hpk (ex_intro _ q (conj Hq Eq)) Uc) as R1.
    assert (Bx : below s h x) by (exists p; split; [exact Hd|reflexivity]).
    split; intros ->.
    + rewrite (up_fun _ _ _ Uc _ Uh) in R1. cbn in R1. congruence.
    + pose proof (root_of_below s h n x lc Hh Hph Bx Uc). congruence.
Qed.

(** * The bound *)
Theorem combed_bound s t n l : tree_ok s -> combed s -> dget s t = Some n -> parent n = None ->
  down s t l -> length l * (length l + 2) <= 8 * size n.
Proof.
  intros T I Hn Hp Hl. pose proof (tree_ok_exact _ T) as [F X].
  destruct (comb_size s F _ _ (I t n Hn Hp l Hl)) as [q [N [B L]]].
  destruct (X t n Hn) as [_ [_ [z [Nz [Bz Lz]]]]].
  assert (Hq : length q <= length z) by (apply NoDup_incl_length; [exact N|intros y Hy; apply Bz, B, Hy]).
  pose proof (half_bounds (S (length l))). nia.
Qed.
Theorem size_keys s t n : tree_ok s -> dget s t = Some n -> size n <= length s.
Proof.
  intros T Hn. pose proof (tree_ok_exact _ T) as [F X]. destruct (X t n Hn) as [_ [_ [z [Nz [Bz Lz]]]]].
  rewrite <- Lz. replace (length s) with (length (dkeys s)) by apply map_length.
  apply NoDup_incl_length; [exact Nz|]. intros y Hy. apply Bz in Hy as [q [Hq <-]].
  pose proof (down_last_in _ _ _ Hq) as Hk. destruct (dget s (last q t)) eqn:Q; [|congruence].
  eapply dget_Some_key; eauto.
Qed.
End Comb.
