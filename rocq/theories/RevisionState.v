(** Sizes and their recomputation in the tree of src/deprecated/revision_tree.py. *)
From Coq Require Import Lia Permutation.
From Verif Require Import Base TreeShape TreeRake Revision SpecRevision RevisionProofs RevisionInsert RevisionStep RevisionShape RevisionTree.
Local Open Scope nat_scope.

Section R.
Context {K : Type} {E : Teq K} {O : TeqOk K}.
Notation rake := (rake (K := K)).
Notation rnodes := (dict K (rnode K)).
Implicit Type s : rnodes.
Implicit Type l : rake.

Lemma place l v : In v (rtags l) -> exists l1 q t l2, l = l1 ++ (q, t) :: l2 /\ (v = q \/ exists t1 t2, t = t1 ++ v :: t2).
Proof.
  unfold rtags. rewrite in_flat_map. intros [[q t] [I J]]. destruct (in_split _ _ I) as [l1 [l2 ->]]. exists l1, q, t, l2. split; [reflexivity|].
  destruct J as [J|J]; [left; symmetry; exact J|]. right. destruct (in_split _ _ J) as [t1 [t2 Q]]. exists t1, t2. exact Q.
Qed.
Lemma tooth_split s t1 d t2 : forall q, tooth s q (t1 ++ d :: t2) -> exists i lf rt p,
  dget s d = Some (mkR i lf rt (Some p) (S (length t2)) (S (length t2))) /\ (lf = hd_error t2 /\ rt = None \/ lf = None /\ rt = hd_error t2) /\
  p = last t1 q /\ tooth s d t2.
Proof.
  induction t1 as [|c t1 IH]; intros q; cbn [app tooth].
  - intros [[i [lf [rt [G D]]]] T]. exists i, lf, rt, q. auto.
  - intros [_ T]. destruct (IH c T) as [i [lf [rt [p [G [D [-> T2]]]]]]]. exists i, lf, rt, (last t1 c). split; [exact G|split; [exact D|split; [|exact T2]]].
    destruct t1; [reflexivity|]. cbn [last]. clear. revert k. induction t1 as [|e t1 IH]; intros k; [reflexivity|apply IH].
Qed.

(** ** Sizes *)
Lemma rpath_head q t l w : In w (rtags ((q, t) :: l)) -> In q (rpath ((q, t) :: l) w).
Proof. intros _. cbn [rpath]. destruct (teq q w), (existsb (fun d => teq d w) t); now left. Qed.
Lemma rpath_in l w u : In u (rpath l w) -> In u (rtags l).
Proof.
  induction l as [|[q t] l IH]; [intros []|]. rewrite rtags_cons. cbn [rpath].
  destruct (teq q w); [intros [->|[]]; now left|]. destruct (existsb (fun d => teq d w) t); (intros [->|H]; [now left|right; rewrite in_app_iff]).
  - left; exact (upto_in w t u H).
  - right; auto.
Qed.
Lemma through_prefix l1 l2 u w : NoDup (rtags (l1 ++ l2)) -> In u (rtags l2) -> In w (rtags (l1 ++ l2)) ->
  (In u (rpath (l1 ++ l2) w) <-> In w (rtags l2) /\ In u (rpath l2 w)).
Proof.
  induction l1 as [|[q t] l1 IH]; intros N Iu Iw; cbn [app] in *; [tauto|]. rewrite rtags_cons in N, Iw. apply NoDup_cons_iff in N as [Nq N].
  destruct (nodup_app _ _ N) as [N1 [N2 D]]. assert (In2 : forall z, In z (rtags l2) -> In z (rtags (l1 ++ l2))) by (intros z Hz; rewrite rtags_app, in_app_iff; now right).
  assert (Uq : q <> u) by (intros ->; apply Nq; rewrite in_app_iff; right; auto).
  assert (Ut : ~ In u t) by (intros C; exact (D u C (In2 u Iu))).
  cbn [rpath]. destruct (teq_spec q w) as [->|Nw].
  - split; [intros [H|[]]; contradiction|]. intros [C _]. exfalso; apply Nq; rewrite in_app_iff; right; auto.
  - destruct Iw as [->|Iw]; [contradiction|]. destruct (existsb (fun d => teq d w) t) eqn:X.
    + apply ex_In in X. split; [intros [H|H]; [contradiction|exfalso; exact (Ut (upto_in w t u H))]|]. intros [C _]. exfalso; exact (D w X (In2 w C)).
    + apply in_app_iff in Iw as [Iw|Iw]; [apply ex_In in Iw; congruence|]. rewrite <- (IH N2 Iu Iw). cbn [In]. tauto.
Qed.
Lemma through_spine l1 q t l2 w : NoDup (rtags (l1 ++ (q, t) :: l2)) -> In w (rtags (l1 ++ (q, t) :: l2)) ->
  (In q (rpath (l1 ++ (q, t) :: l2) w) <-> In w (rtags ((q, t) :: l2))).
Proof.
  intros N I. rewrite (through_prefix l1 ((q, t) :: l2) q w N) by (exact I || now left). split; [tauto|]. intros H; split; [exact H|exact (rpath_head q t l2 w H)].
Qed.
Lemma upto_tooth t1 d t2 w : NoDup (t1 ++ d :: t2) -> In w (t1 ++ d :: t2) -> (In d (upto w (t1 ++ d :: t2)) <-> In w (d :: t2)).
Proof.
  induction t1 as [|c t1 IH]; cbn [app upto]; intros N I.
  - split; [intros _; exact I|]. intros _. destruct (teq d w); now left.
  - apply NoDup_cons_iff in N as [Nc N]. assert (Dc : c <> d) by (intros ->; apply Nc; rewrite in_app_iff; right; now left).
    destruct (teq_spec c w) as [->|Nw].
    + split; [intros [H|[]]; contradiction|]. intros C. exfalso; apply Nc; rewrite in_app_iff; now right.
    + destruct I as [->|I]; [contradiction|]. rewrite <- (IH N I). cbn [In]. tauto.
Qed.
Lemma through_tooth l1 q t1 d t2 l2 w : let l := l1 ++ (q, t1 ++ d :: t2) :: l2 in NoDup (rtags l) -> In w (rtags l) ->
  (In d (rpath l w) <-> In w (d :: t2)).
Proof.
  cbv zeta. intros N I. assert (Dt : In d (t1 ++ d :: t2)) by (rewrite in_app_iff; right; now left).
  rewrite (through_prefix l1 _ d w N) by (exact I || (rewrite rtags_cons; right; rewrite in_app_iff; now left)).
  rewrite rtags_app in N. destruct (nodup_app _ _ N) as [_ [N2 _]]. rewrite rtags_cons in N2 |- *. apply NoDup_cons_iff in N2 as [Nq N2].
  destruct (nodup_app _ _ N2) as [N3 [_ D]]. assert (Qd : q <> d) by (intros ->; apply Nq; rewrite in_app_iff; now left).
  cbn [rpath]. destruct (teq_spec q w) as [->|Nw].
  - split; [intros [_ [H|[]]]; contradiction|]. intros C. exfalso; apply Nq; rewrite !in_app_iff; left; now right.
  - destruct (existsb (fun c => teq c w) (t1 ++ d :: t2)) eqn:X.
    + apply ex_In in X. rewrite <- (upto_tooth t1 d t2 w N3 X). split; [intros [_ [H|H]]; [contradiction|exact H]|].
      intros H. split; [right; rewrite in_app_iff; now left|now right].
    + assert (Xf : ~ In w (t1 ++ d :: t2)) by (rewrite <- ex_In; congruence). split.
      * intros [_ [H|H]]; [contradiction|]. exfalso. exact (D d Dt (rpath_in l2 w d H)).
      * intros C. exfalso; apply Xf; rewrite in_app_iff; now right.
Qed.

Lemma filter_count (f : K -> bool) ts L : NoDup ts -> NoDup L -> (forall w, In w ts /\ f w = true <-> In w L) -> length (filter f ts) = length L.
Proof.
  intros N NL H. apply Permutation_length, NoDup_Permutation; [now apply NoDup_filter|exact NL|]. intros w. rewrite filter_In. apply H.
Qed.
Theorem good_state rt l ts v : good rt l ts -> In v ts ->
  exists z, r_get_state rt v = Some (z, z) /\ z = length (filter (through rt v) ts).
Proof.
  intros G Hv. pose proof (good_nd rt l ts G) as N. pose proof (g_spine _ _ _ G) as SP.
  assert (Th : forall w, In w ts -> (through rt v w = true <-> In v (rpath l w))).
  { intros w Hw. unfold through. rewrite (good_path rt l ts G w Hw). apply ex_In. }
  assert (Pin : forall w, In w (rtags l) <-> In w ts) by (intros w; split; apply Permutation_in; [|symmetry]; apply (g_perm _ _ _ G)).
  destruct (place l v) as [l1 [q [t [l2 [Q C]]]]]; [now apply Pin|]. unfold r_get_state. rewrite Q in SP.
  destruct (spine_split _ _ _ _ SP) as [_ SP2]. cbn [spine] in SP2. destruct SP2 as [[i Gq] [T _]].
  destruct C as [->|[t1 [t2 ->]]].
  - rewrite Gq. cbn [r_size r_height]. exists (wt ((q, t) :: l2)). split; [reflexivity|]. symmetry. unfold wt. apply filter_count.
    + apply (g_nodup _ _ _ G).
    + rewrite Q, rtags_app in N. now apply nodup_app in N.
    + intros w. split.
      * intros [Hw H]. apply Th in H; [|exact Hw]. rewrite Q in H, N. apply (through_spine l1 q t l2 w N) in H; [exact H|]. rewrite <- Q. now apply Pin.
      * intros H. assert (Hw : In w ts) by (apply Pin; rewrite Q, rtags_app, in_app_iff; now right). split; [exact Hw|]. apply Th; [exact Hw|].
        rewrite Q in N |- *. apply through_spine; [exact N| |exact H]. rewrite <- Q. now apply Pin.
  - destruct (tooth_split _ _ _ _ _ T) as [i2 [lf [r [p [Gv _]]]]]. rewrite Gv. cbn [r_size r_height]. exists (S (length t2)). split; [reflexivity|].
    symmetry. change (S (length t2)) with (length (v :: t2)).
    assert (Iv : forall w, In w (v :: t2) -> In w ts).
    { intros w H. apply Pin. rewrite Q, rtags_app, rtags_cons, in_app_iff. right; right. rewrite !in_app_iff. left; now right. }
    apply filter_count.
    + apply (g_nodup _ _ _ G).
    + rewrite Q, rtags_app in N. apply nodup_app in N as [_ [N _]]. rewrite rtags_cons in N. apply NoDup_cons_iff in N as [_ N].
      apply nodup_app in N as [N _]. now apply nodup_app in N.
    + intros w. split.
      * intros [Hw H]. apply Th in H; [|exact Hw]. rewrite Q in H, N. apply (through_tooth l1 q t1 v t2 l2 w N) in H; [exact H|]. rewrite <- Q. now apply Pin.
      * intros H. specialize (Iv w H). split; [exact Iv|]. apply Th; [exact Iv|]. rewrite Q in N |- *. apply through_tooth; [exact N| |exact H].
        rewrite <- Q. now apply Pin.
Qed.
Theorem states_of ts : NoDup ts -> exists t, r_insert_all ts r_empty = Ok t /\
  (forall v, In v ts -> exists z, r_get_state t v = Some (z, z) /\ z = length (filter (through t v) ts)) /\
  (forall v, ~ In v ts -> r_get_state t v = None).
Proof.
  intros N. destruct ts as [|b ts].
  - exists r_empty. split; [reflexivity|split; [intros v []|reflexivity]].
  - destruct (insertions (b :: ts) N ltac:(discriminate)) as [rt [l [I [G _]]]]. exists rt. split; [exact I|split; [intros v Hv; exact (good_state rt l _ v G Hv)|]].
    intros v Hv. unfold r_get_state. destruct (dget (r_index rt) v) eqn:Gv; [|reflexivity]. exfalso. apply Hv. rewrite <- (g_keys _ _ _ G). apply dget_keys. congruence.
Qed.

(** ** Recomputation *)
Section Again.
Variable s0 : rnodes.
Definition child (c v : K) : Prop := exists n, dget s0 v = Some n /\ (r_left n = Some c \/ r_right n = Some c).
Definition lone (v : K) : Prop := exists n, dget s0 v = Some n /\ r_left n = None /\ r_right n = None.
Record sound : Prop := {
  so_keys : NoDup (dkeys s0);
  so_child : forall c v, child c v -> exists n m, dget s0 c = Some n /\ dget s0 v = Some m /\ r_parent n = Some v /\ r_size n < r_size m;
  so_parent : forall v n p, dget s0 v = Some n -> r_parent n = Some p -> child v p;
  so_states : forall v n, dget s0 v = Some n -> exists a b, r_states s0 (r_left n) = Ok a /\ r_states s0 (r_right n) = Ok b /\
    r_height n = 1 + fst a + fst b /\ r_size n = 1 + snd a + snd b;
  so_up : forall v, In v (dkeys s0) -> exists p, r_up (length s0) (Some v) s0 = Ok p
}.
Hypothesis SO : sound.

Definition links (n : rnode K) := (r_id n, r_left n, r_right n, r_parent n).
Definition alike s : Prop := dkeys s = dkeys s0 /\ forall v n m, dget s v = Some n -> dget s0 v = Some m -> links n = links m.
Definition right_at s v : Prop := dget s v = dget s0 v.
(** every leaf below is among [D] *)
Inductive all_in (D : list K) : K -> Prop :=
| all_leaf v : lone v -> In v D -> all_in D v
| all_node v : (exists c, child c v) -> (forall c, child c v -> all_in D c) -> all_in D v.

Lemma alike_get s v : alike s -> forall m, dget s0 v = Some m -> exists n, dget s v = Some n /\ links n = links m.
Proof.
  intros [Kk L] m G. destruct (dget s v) as [n|] eqn:H; [eauto|]. exfalso.
  assert (I : In v (dkeys s)) by (rewrite Kk; apply dget_keys; congruence). apply keys_dget in I. contradiction.
Qed.
Lemma alike_step s v n h z : alike s -> dget s v = Some n -> alike (dset s v (set_states n h z)).
Proof.
  intros [Kk L] G. split; [rewrite (dkeys_dset_in s v n _ G); exact Kk|]. intros w a b H1 H2.
  destruct (T_dec v w) as [->|D]; [rewrite dget_dset_same in H1; injection H1 as <-; exact (L w n b G H2)|].
  rewrite dget_dset_other in H1 by congruence. exact (L w a b H1 H2).
Qed.
Lemma alike_length s : alike s -> length s = length s0.
Proof. intros [Kk _]. now apply dkeys_length. Qed.
Lemma up_bigger fuel : forall v m p, dget s0 v = Some m -> r_up fuel (Some v) s0 = Ok p -> forall u, In u p -> exists n, dget s0 u = Some n /\ r_size m <= r_size n.
Proof.
  induction fuel as [|fuel IH]; intros v m p G H u I; cbn [r_up] in H; [discriminate|]. unfold node_at in H. rewrite G in H. cbn [bind] in H.
  destruct (r_up fuel (r_parent m) s0) as [r|] eqn:R; [|discriminate]. cbn [bind] in H. injection H as <-. destruct I as [->|I]; [eauto|].
  destruct (r_parent m) as [q|] eqn:Pm.
  - destruct (so_child SO v q (so_parent SO v m q G Pm)) as [n [mq [G1 [G2 [_ L]]]]]. rewrite G in G1. injection G1 as <-.
    destruct (IH q mq r G2 R u I) as [n' [G' L']]. exists n'. split; [exact G'|lia].
  - destruct fuel; cbn [r_up] in R; injection R as <-; destruct I.
Qed.

Lemma update_again D fuel : forall cur s p, alike s -> r_up fuel cur s0 = Ok p -> (forall v, all_in D v -> ~ In v p -> right_at s v) ->
  exists s', r_update fuel cur s = Ok s' /\ alike s' /\ (forall v, all_in D v -> right_at s' v).
Proof.
  induction fuel as [|fuel IH]; intros cur s p A U H.
  - destruct cur as [t|]; cbn [r_up r_update] in *; [discriminate|]. injection U as <-. exists s. split; [reflexivity|split; [exact A|]]. intros v Hv; apply H; [exact Hv|intros []].
  - destruct cur as [t|]; cbn [r_up r_update] in *; [|injection U as <-; exists s; split; [reflexivity|split; [exact A|]]; intros v Hv; apply H; [exact Hv|intros []]].
    unfold node_at in U. destruct (dget s0 t) as [m|] eqn:Gt; [|discriminate]. cbn [bind] in U.
    destruct (r_up fuel (r_parent m) s0) as [r|] eqn:R; [|discriminate]. cbn [bind] in U. injection U as <-.
    destruct (alike_get s t A m Gt) as [n [Gn Ln]]. injection Ln as L1 L2 L3 L4.
    unfold node_at at 1. rewrite Gn. cbn [bind]. rewrite L2, L3, L4.
    assert (Up : r_up (S fuel) (Some t) s0 = Ok (t :: r)) by (cbn [r_up]; unfold node_at; rewrite Gt; cbn [bind]; rewrite R; reflexivity).
    assert (Sm : forall c, child c t -> ~ In c (t :: r)).
    { intros c Hc I. destruct (so_child SO c t Hc) as [nc [mt [G1 [G2 [_ L]]]]]. rewrite Gt in G2. injection G2 as <-.
      destruct (up_bigger (S fuel) t m (t :: r) Gt Up c I) as [n' [G' L']]. rewrite G1 in G'. injection G' as <-. lia. }
    assert (St : forall o, (o = r_left m \/ o = r_right m) -> exists a, r_states s o = Ok a /\
              (all_in D t -> r_states s0 o = Ok a)).
    { intros [c|] Ho; cbn [r_states]; [|exists (0, 0); auto].
      assert (Hc : child c t) by (exists m; split; [exact Gt|destruct Ho as [Ho|Ho]; auto]).
      destruct (so_child SO c t Hc) as [nc [mt [G1 [G2 [_ L]]]]]. destruct (alike_get s c A nc G1) as [n' [G' _]].
      unfold node_at. rewrite G', G1. cbn [bind]. eexists; split; [reflexivity|]. intros Al.
      assert (Rc : right_at s c).
      { apply H; [|exact (Sm c Hc)]. destruct Al as [v [k [Gk [K1 K2]]] _|v _ Al]; [|exact (Al c Hc)].
        destruct Hc as [k' [Gk' Hc]]. rewrite Gk in Gk'. injection Gk' as <-. destruct Hc; congruence. }
      unfold right_at in Rc. rewrite G', G1 in Rc. injection Rc as <-. reflexivity. }
    destruct (St (r_left m) (or_introl eq_refl)) as [a [Qa Ra]], (St (r_right m) (or_intror eq_refl)) as [b [Qb Rb]]. rewrite Qa, Qb. cbn [bind].
    apply (IH (r_parent m) _ r); [apply alike_step; assumption|exact R|].
    intros v Hv Nv. unfold right_at. destruct (T_dec t v) as [<-|Dt].
    + rewrite dget_dset_same, Gt. f_equal. destruct (so_states SO t m Gt) as [a' [b' [Qa' [Qb' [Hh Hz]]]]].
      rewrite (Ra Hv) in Qa'. rewrite (Rb Hv) in Qb'. injection Qa' as <-. injection Qb' as <-.
      unfold set_states. rewrite L1, L2, L3, L4, <- Hh, <- Hz. destruct m; reflexivity.
    + rewrite dget_dset_other by congruence. apply H; [exact Hv|]. intros [C|C]; contradiction.
Qed.
Lemma up_keys fuel : forall v p, In v (dkeys s0) -> r_up fuel (Some v) s0 = Ok p -> In v p.
Proof.
  intros v p I H. destruct fuel; cbn [r_up] in H; [discriminate|]. unfold node_at in H. destruct (dget s0 v) as [m|]; [|discriminate]. cbn [bind] in H.
  destruct (r_up fuel (r_parent m) s0); [|discriminate]. cbn [bind] in H. injection H as <-. now left.
Qed.
(** the nodes above a node, itself included *)
Lemma up_closed fuel : forall v p u c, r_up fuel (Some v) s0 = Ok p -> In c p -> child c u -> In u p.
Proof.
  induction fuel as [|fuel IH]; intros v p u c H I Hc; cbn [r_up] in H; [discriminate|]. unfold node_at in H.
  destruct (dget s0 v) as [m|] eqn:G; [|discriminate]. cbn [bind] in H. destruct (r_up fuel (r_parent m) s0) as [r|] eqn:R; [|discriminate].
  cbn [bind] in H. injection H as <-. right. destruct (so_child SO c u Hc) as [n [mu [G1 [G2 [Pn _]]]]].
  destruct I as [->|I].
  - rewrite G in G1. injection G1 as <-. rewrite Pn in R. assert (Iu : In u (dkeys s0)) by (apply dget_keys; congruence). exact (up_keys fuel u r Iu R).
  - destruct (r_parent m) as [q|] eqn:Pm; [|destruct fuel; cbn [r_up] in R; injection R as <-; destruct I]. exact (IH q r u c R I Hc).
Qed.
Lemma all_more D t fuel p : r_up fuel (Some t) s0 = Ok p -> In t (dkeys s0) -> forall v, all_in (t :: D) v -> all_in D v \/ In v p.
Proof.
  intros U It v H. induction H as [v L [->|I]|v Ex Al IH].
  - right. exact (up_keys fuel v p It U).
  - left. now apply all_leaf.
  - assert (X : (exists c, child c v /\ In c p) \/ forall c, child c v -> all_in D c).
    { destruct Ex as [c0 [n [G Hc0]]].
      assert (Y : forall c, child c v -> r_left n = Some c \/ r_right n = Some c).
      { intros c [n' [G' Hc]]. rewrite G in G'. injection G' as <-. exact Hc. }
      destruct (r_left n) as [a|] eqn:La.
      - assert (Ca : child a v) by (exists n; auto). destruct (IH a Ca) as [Aa|Aa]; [|left; eauto].
        destruct (r_right n) as [b|] eqn:Rb.
        + assert (Cb : child b v) by (exists n; auto). destruct (IH b Cb) as [Ab|Ab]; [|left; eauto].
          right. intros c Hc. destruct (Y c Hc) as [Q|Q]; injection Q as <-; assumption.
        + right. intros c Hc. destruct (Y c Hc) as [Q|Q]; [injection Q as <-; assumption|discriminate].
      - destruct (r_right n) as [b|] eqn:Rb; [|destruct Hc0; discriminate].
        assert (Cb : child b v) by (exists n; auto). destruct (IH b Cb) as [Ab|Ab]; [|left; eauto].
        right. intros c Hc. destruct (Y c Hc) as [Q|Q]; [discriminate|injection Q as <-; assumption]. }
    destruct X as [[c [Hc Ic]]|X]; [right; exact (up_closed fuel t p v c U Ic Hc)|left; now apply all_node].
Qed.
Lemma ripple_again D fuel : forall cur s p, alike s -> r_up fuel cur s0 = Ok p -> (forall v, all_in D v -> ~ In v p -> right_at s v) ->
  exists s', r_ripple fuel cur s = Ok s' /\ alike s' /\ (forall v, all_in D v -> right_at s' v).
Proof.
  induction fuel as [|fuel IH]; intros cur s p A U H.
  - destruct cur as [t|]; cbn [r_up r_ripple] in *; [discriminate|]. injection U as <-. exists s. split; [reflexivity|split; [exact A|]]. intros v Hv; apply H; [exact Hv|intros []].
  - destruct cur as [t|]; cbn [r_up r_ripple] in *; [|injection U as <-; exists s; split; [reflexivity|split; [exact A|]]; intros v Hv; apply H; [exact Hv|intros []]].
    unfold node_at in U. destruct (dget s0 t) as [m|] eqn:Gt; [|discriminate]. cbn [bind] in U.
    destruct (r_up fuel (r_parent m) s0) as [r|] eqn:R; [|discriminate]. cbn [bind] in U. injection U as <-.
    assert (It : In t (dkeys s0)) by (apply dget_keys; congruence). destruct (so_up SO t It) as [p2 Up2].
    assert (Eq : p2 = t :: r).
    { assert (Up : r_up (S fuel) (Some t) s0 = Ok (t :: r)) by (cbn [r_up]; unfold node_at; rewrite Gt; cbn [bind]; rewrite R; reflexivity).
      clear -Up Up2. revert Up Up2. generalize (S fuel), (length s0), (Some t), (t :: r). intros f1. revert p2. induction f1 as [|f1 IH]; intros p2 f2 [u|] q U1 U2; cbn [r_up] in U1; try discriminate.
      - injection U1 as <-. destruct f2; cbn [r_up] in U2; congruence.
      - destruct f2 as [|f2]; cbn [r_up] in U2; [discriminate|]. destruct (node_at s0 u) as [n|]; [|discriminate]. cbn [bind] in *.
        destruct (r_up f1 (r_parent n) s0) as [x|] eqn:X1; [|discriminate]. destruct (r_up f2 (r_parent n) s0) as [y|] eqn:X2; [|discriminate]. cbn [bind] in *.
        rewrite (IH y f2 _ x X1 X2) in U2. congruence.
      - injection U1 as <-. destruct f2; cbn [r_up] in U2; congruence. }
    subst p2. rewrite (alike_length s A). destruct (update_again D (length s0) (Some t) s (t :: r) A Up2 H) as [s1 [Q1 [A1 H1]]].
    rewrite Q1. cbn [bind]. destruct (alike_get s1 t A1 m Gt) as [n [Gn Ln]]. unfold node_at. rewrite Gn. cbn [bind]. injection Ln as _ _ _ L4. rewrite L4.
    apply (IH (r_parent m) s1 r A1 R). intros v Hv _. exact (H1 v Hv).
Qed.
Lemma reevaluate_again ts : forall s D, incl ts (dkeys s0) -> alike s -> (forall v, all_in D v -> right_at s v) ->
  exists s', r_reevaluate_loop ts s = Ok s' /\ alike s' /\ (forall v, all_in (rev ts ++ D) v -> right_at s' v).
Proof.
  induction ts as [|t ts IH]; intros s D In0 A H.
  - exists s. split; [reflexivity|split; [exact A|exact H]].
  - assert (It : In t (dkeys s0)) by (apply In0; now left). assert (In1 : incl ts (dkeys s0)) by (intros u Hu; apply In0; now right).
    destruct (dget s0 t) as [m|] eqn:Gt; [|apply keys_dget in It; contradiction].
    destruct (alike_get s t A m Gt) as [n [Gn Ln]]. injection Ln as L1 L2 L3 L4. cbn [r_reevaluate_loop rev]. unfold node_at; rewrite Gn; cbn [bind].
    destruct (so_up SO t It) as [p Up].
    assert (Step : exists s1, match r_left n, r_right n with None, None => r_ripple (length s) (Some t) s | _, _ => Ok s end = Ok s1 /\ alike s1 /\
              (forall v, all_in (t :: D) v -> right_at s1 v)).
    { assert (Keep : ~ lone t -> forall v, all_in (t :: D) v -> right_at s v).
      { intros Nl v Hv. apply H. induction Hv as [v L [->|I]|v Ex Al IHv]; [contradiction|now apply all_leaf|now apply all_node]. }
      rewrite L2, L3. destruct (r_left m) as [a|] eqn:La.
      - exists s. split; [reflexivity|split; [exact A|]]. apply Keep. intros [k [Gk [K1 _]]]. congruence.
      - destruct (r_right m) as [b|] eqn:Rb.
        + exists s. split; [reflexivity|split; [exact A|]]. apply Keep. intros [k [Gk [_ K1]]]. congruence.
        + rewrite (alike_length s A). apply (ripple_again (t :: D) (length s0) (Some t) s p A Up).
          intros v Hv Nv. apply H. destruct (all_more D t (length s0) p Up It v Hv) as [X|X]; [exact X|contradiction]. }
    destruct Step as [s1 [Q1 [A1 H1]]]. rewrite Q1. cbn [bind]. destruct (IH s1 (t :: D) In1 A1 H1) as [s2 [Q2 [A2 H2]]].
    exists s2. split; [exact Q2|split; [exact A2|]]. intros v Hv. apply H2. rewrite <- app_assoc in Hv. exact Hv.
Qed.
Lemma all_all D : (forall v, In v (dkeys s0) -> In v D) -> forall z v n, dget s0 v = Some n -> r_size n <= z -> all_in D v.
Proof.
  intros HD. induction z as [|z IH]; intros v n G L.
  - destruct (so_states SO v n G) as [a [b [_ [_ [_ Hz]]]]]. lia.
  - assert (Y : forall c, child c v -> all_in D c).
    { intros c Hc. destruct (so_child SO c v Hc) as [nc [m [G1 [G2 [_ Lt]]]]]. rewrite G in G2. injection G2 as <-. apply (IH c nc G1). lia. }
    destruct (r_left n) as [a|] eqn:La; [apply all_node; [exists a, n; auto|exact Y]|].
    destruct (r_right n) as [b|] eqn:Rb; [apply all_node; [exists b, n; auto|exact Y]|].
    apply all_leaf; [exists n; auto|]. apply HD, dget_keys. congruence.
Qed.
Lemma dict_ext (s s' : rnodes) : NoDup (dkeys s) -> dkeys s' = dkeys s -> (forall v, In v (dkeys s) -> dget s' v = dget s v) -> s' = s.
Proof.
  revert s'; unfold dkeys. induction s as [|[k n] s IH]; intros [|[k' n'] s']; cbn [map fst]; intros N Q H; try discriminate; [reflexivity|].
  injection Q as -> Q. apply NoDup_cons_iff in N as [Nk N]. pose proof (H k (or_introl eq_refl)) as Hk. cbn [dget] in Hk. rewrite teq_refl in Hk. injection Hk as ->.
  f_equal. apply IH; [exact N|exact Q|]. intros v Hv. specialize (H v (or_intror Hv)). cbn [dget] in H.
  destruct (teq_spec k v) as [->|_]; [contradiction|exact H].
Qed.
Theorem recomputed s : alike s -> r_reevaluate_loop (dkeys s) s = Ok s0.
Proof.
  intros A. destruct (reevaluate_again (dkeys s) s []) as [s' [Q [A' H]]].
  - rewrite (proj1 A). apply incl_refl.
  - exact A.
  - intros v Hv. exfalso. induction Hv as [v L []|v [c Hc] Al IH]. exact (IH c Hc).
  - rewrite Q. f_equal. apply dict_ext; [apply (so_keys SO)|apply A'|]. intros v Hv. apply H.
    destruct (dget s0 v) as [n|] eqn:G; [|apply keys_dget in Hv; contradiction].
    apply (all_all _) with (z := r_size n) (n := n); [|exact G|lia]. intros u Hu. rewrite (proj1 A), in_app_iff. left. now apply -> in_rev.
Qed.
End Again.
End R.
