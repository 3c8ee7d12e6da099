(** The exact shape of the tree of a branch (C66): a spine of versions, from each of
    which hangs one chain. *)
From Coq Require Import Lia Permutation.
From Verif Require Import Base Tree SpecTree TreeProofs TreeExact TreeComb.
Local Open Scope nat_scope.

Section Shape.
Context {K : Type} {E : Teq K} {O : TeqOk K}.
Implicit Type s : nodes K.

(** ** Rakes *)
Definition rake := list (K * list K).
Fixpoint chain (q : K) (t : list K) : list (K * K) :=
  match t with [] => [] | c :: t' => (q, c) :: chain c t' end.
Definition first_of (l : rake) : option K := match l with [] => None | (q, _) :: _ => Some q end.
Fixpoint redges (l : rake) : list (K * K) :=
  match l with
  | [] => []
  | (q, t) :: l' => chain q t ++ match first_of l' with None => [] | Some q' => [(q, q')] end ++ redges l'
  end.
Definition rtags (l : rake) : list K := flat_map (fun x => fst x :: snd x) l.
Definition lens (l : rake) : list nat := map (fun x => length (snd x)) l.
Fixpoint tall_of (l : list nat) : nat := match l with [] => 0 | t :: r => S (Nat.max t (tall_of r)) end.

Lemma rtags_app a b : rtags (a ++ b) = rtags a ++ rtags b.
Proof. apply flat_map_app. Qed.
Lemma chain_source q t u v : In (u, v) (chain q t) -> In u (q :: t).
Proof.
  revert q; induction t as [|c t IH]; intros q; cbn; [intros []|].
  intros [H|H]; [injection H as -> _; now left|right; exact (IH c H)].
Qed.
Lemma chain_target q t u v : In (u, v) (chain q t) -> In v t.
Proof.
  revert q; induction t as [|c t IH]; intros q; cbn; [intros []|].
  intros [H|H]; [injection H as _ ->; now left|right; exact (IH c H)].
Qed.
Lemma chain_app q a b u v : In (u, v) (chain q (a ++ b)) <-> In (u, v) (chain q a) \/ In (u, v) (chain (last a q) b).
Proof.
  revert q; induction a as [|c a IH]; intros q; cbn [app chain].
  - cbn; tauto.
  - cbn [In]; rewrite IH, (last_irrel c q c).
    replace (last (c :: a) c) with (last a c) by (destruct a; reflexivity). tauto.
Qed.
Lemma first_in l q : first_of l = Some q -> In q (rtags l).
Proof. destruct l as [|[a t] l]; cbn; [discriminate|intros H; injection H as ->; now left]. Qed.
Lemma redges_source l u v : In (u, v) (redges l) -> In u (rtags l).
Proof.
  induction l as [|[q t] l IH]; cbn [redges rtags flat_map fst snd]; [intros []|].
  rewrite !in_app_iff; intros [H|[H|H]].
  - left; exact (chain_source _ _ _ _ H).
  - destruct (first_of l); [|destruct H]; destruct H as [H|[]]; injection H as -> _; left; now left.
  - right; now apply IH.
Qed.
Lemma redges_target l u v : In (u, v) (redges l) -> In v (tl (rtags l)).
Proof.
  induction l as [|[q t] l IH]; cbn [redges rtags flat_map fst snd]; [intros []|].
  cbn [tl app]. rewrite !in_app_iff; intros [H|[H|H]].
  - left; exact (chain_target _ _ _ _ H).
  - right. destruct (first_of l) as [q'|] eqn:F; [|destruct H]; destruct H as [H|[]]; injection H as _ ->. now apply first_in.
  - right. apply IH in H. unfold rtags in *. destruct (flat_map (fun x => fst x :: snd x) l); [destruct H|now right].
Qed.
Lemma redges_app a b u v : In (u, v) (redges (a ++ b)) <->
  In (u, v) (redges a) \/ (exists a' q t q', a = a' ++ [(q, t)] /\ first_of b = Some q' /\ u = q /\ v = q') \/ In (u, v) (redges b).
Proof.
  induction a as [|[q t] a IH]; cbn [app redges].
  - split; [auto|intros [[]|[(a' & q & t & q' & H & _)|H]]; [destruct a'; discriminate|exact H]].
  - rewrite !in_app_iff, IH. destruct a as [|[q1 t1] a].
    + cbn [app first_of redges]. split.
      * intros [H|[H|[[]|[(a' & x & y & z & H & _)|H]]]]; auto; [|destruct a'; discriminate].
        destruct (first_of b) as [q'|] eqn:F; [|destruct H]; destruct H as [H|[]]; injection H as -> ->.
        right; left; exists [], u, t, v; auto.
      * intros [[H|[[]|[]]]|[(a' & x & y & z & H & F & -> & ->)|H]]; auto.
        assert (a' = []) as -> by (destruct a' as [|? [|? ?]]; [reflexivity|discriminate|discriminate]).
        injection H as -> ->. rewrite F; cbn; auto.
    + cbn [app first_of]. split.
      * intros [H|[H|[H|[(a' & x & y & z & H & F)|H]]]]; auto.
        right; left; exists ((q, t) :: a'), x, y, z. rewrite H; auto.
      * intros [[H|[H|H]]|[(a' & x & y & z & H & F)|H]]; auto.
        destruct a' as [|b0 a']; [discriminate|]. injection H as <- H.
        right; right; right; left; exists a', x, y, z; auto.
Qed.

Lemma nodup_app {A} (a b : list A) : NoDup (a ++ b) -> NoDup a /\ NoDup b /\ forall x, In x a -> ~ In x b.
Proof.
  induction a as [|x a IH]; cbn; intros H; [split; [constructor|split; [exact H|intros x []]]|].
  inversion H as [|? ? Hx Hr]; subst. destruct (IH Hr) as [A1 [A2 A3]]. rewrite in_app_iff in Hx.
  split; [constructor; tauto|split; [exact A2|]]. intros y [<-|Hy]; [tauto|auto].
Qed.
Lemma app_nodup {A} (a b : list A) : NoDup a -> NoDup b -> (forall x, In x a -> ~ In x b) -> NoDup (a ++ b).
Proof.
  induction 1 as [|x a Hx Ha IH]; cbn; intros Hb D; [exact Hb|]. constructor.
  - rewrite in_app_iff; intros [C|C]; [contradiction|apply (D x); [now left|exact C]].
  - apply IH; [exact Hb|]; intros y Hy; apply D; now right.
Qed.

(** what hangs from the versions of the spine and of the chains *)
Lemma redges_spine l1 q t l2 v : NoDup (rtags (l1 ++ (q, t) :: l2)) ->
  In (q, v) (redges (l1 ++ (q, t) :: l2)) <-> hd_error t = Some v \/ first_of l2 = Some v.
Proof.
  intros N; rewrite rtags_app in N; destruct (nodup_app _ _ N) as [_ [N2 D]].
  cbn [rtags flat_map fst snd app] in N2. inversion N2 as [|? ? Hq _]; subst.
  rewrite in_app_iff in Hq.
  assert (NQ : ~ In q (rtags l1)) by (intros C; apply (D q C); now left).
  rewrite redges_app; cbn [redges]; rewrite !in_app_iff. split.
  - intros [H|[(a' & x & y & z & H & F & -> & ->)|[H|[H|H]]]].
    + now apply redges_source in H.
    + exfalso; apply NQ; rewrite H, rtags_app, in_app_iff; right; now left.
    + left. destruct t as [|c t]; [destruct H|]. destruct H as [H|H]; [injection H as ->; reflexivity|].
      apply chain_source in H; tauto.
    + right; destruct (first_of l2); [|destruct H]; destruct H as [H|[]]; congruence.
    + apply redges_source in H; tauto.
  - intros [H|H]; right; right; [left|right; left].
    + destruct t; [discriminate|]; injection H as ->; now left.
    + rewrite H; now left.
Qed.
Lemma chain_in q t1 d t2 v : NoDup (q :: t1 ++ d :: t2) -> In (d, v) (chain q (t1 ++ d :: t2)) <-> hd_error t2 = Some v.
Proof.
  intros N. inversion N as [|? ? Hq N']; subst. destruct (nodup_app _ _ N') as [_ [N2 D]]. inversion N2 as [|? ? Hd _]; subst.
  rewrite chain_app; cbn [chain]. split.
  - intros [H|[H|H]].
    + apply chain_source in H; destruct H as [<-|H]; exfalso; [apply Hq; rewrite in_app_iff; right; now left|].
      apply (D d H); now left.
    + injection H as H _. exfalso. destruct t1 as [|c t1]; [cbn in H; apply Hq; subst; now left|].
      assert (In (last (c :: t1) q) (c :: t1)).
      { destruct (exists_last (l := c :: t1)) as [l' [y Y]]; [discriminate|]. rewrite Y, last_last, in_app_iff; right; now left. }
      rewrite H in H0. apply (D d H0); now left.
    + destruct t2 as [|e t2]; [destruct H|]. destruct H as [H|H]; [injection H as ->; reflexivity|].
      apply chain_source in H; contradiction.
  - intros H; right; right. destruct t2; [discriminate|]; injection H as ->; now left.
Qed.
Lemma redges_tooth l1 q t1 d t2 l2 v : NoDup (rtags (l1 ++ (q, t1 ++ d :: t2) :: l2)) ->
  In (d, v) (redges (l1 ++ (q, t1 ++ d :: t2) :: l2)) <-> hd_error t2 = Some v.
Proof.
  intros N; rewrite rtags_app in N; destruct (nodup_app _ _ N) as [_ [N2 D]].
  cbn [rtags flat_map fst snd] in N2. destruct (nodup_app _ _ N2) as [N3 [_ D2]].
  assert (ND : In d (q :: t1 ++ d :: t2)) by (right; rewrite in_app_iff; right; now left).
  assert (D1 : ~ In d (rtags l1)).
  { intros C; apply (D d C); cbn [rtags flat_map fst snd]; rewrite in_app_iff; now left. }
  assert (Dq : d <> q).
  { intros ->. inversion N3 as [|? ? C _]; subst; apply C; rewrite in_app_iff; right; now left. }
  rewrite redges_app; cbn [redges]; rewrite !in_app_iff, chain_in by exact N3. split; [|auto].
  intros [H|[(a' & x & y & z & H & F & -> & ->)|[H|[H|H]]]]; auto; exfalso.
  - now apply redges_source in H.
  - apply D1; rewrite H, rtags_app, in_app_iff; right; now left.
  - destruct (first_of l2); [|destruct H]; destruct H as [H|[]]; congruence.
  - apply redges_source in H; now apply (D2 d).
Qed.

(** ** A tree of this shape *)
Definition older s (c q : K) : Prop := forall nc nq, dget s c = Some nc -> dget s q = Some nq -> order_id nc < order_id nq.
Fixpoint newer s (l : rake) : Prop :=
  match l with
  | [] => True
  | (q, t) :: l' => match first_of l' with None => True | Some q' => forall c, In c t -> older s c q' end /\ newer s l'
  end.
Record raked s (l : rake) : Prop := {
  r_nodup : NoDup (rtags l);
  r_known : forall q, In q (rtags l) -> dget s q <> None;
  r_edges : forall q c, In q (rtags l) -> (child_of s c q <-> In (q, c) (redges l));
  r_newer : newer s l
}.

Lemma newer_at s l1 q t l2 q' c : newer s (l1 ++ (q, t) :: l2) -> first_of l2 = Some q' -> In c t -> older s c q'.
Proof.
  induction l1 as [|[a b] l1 IH]; cbn [app newer]; [|intros [_ H]; auto].
  intros [H _] F; rewrite F in H; auto.
Qed.

Section One.
Variable s : nodes K.
Variable T : tree_ok s.
Variable l : rake.
Variable R : raked s l.

Lemma leaf_height t n : dget s t = Some n -> (forall c, ~ child_of s c t) -> height n = 1.
Proof.
  intros Hn H. destruct (tree_ok_exact s T) as [_ X]. destruct (X t n Hn) as [_ [[[p [Hp Lp]] _] _]].
  inversion Hp as [|? c p' Hc _]; subst; [symmetry; exact Lp|]. now apply H in Hc.
Qed.
(** all children of a version *)
Lemma best_of t c nc : dget s c = Some nc -> child_of s c t ->
  (forall c' n', child_of s c' t -> dget s c' = Some n' -> c' = c \/ height n' < height nc \/ (height n' <= height nc /\ older s c' c)) ->
  best_child s t c.
Proof.
  intros Hc [m [Hm Hp]] H. assert (m = nc) by congruence; subst m. exists nc; split; [exact Hc|split; [exact Hp|]].
  intros c' n' Hn' Hp'. destruct (H c' n') as [->|[L|[L Q]]]; auto; [exists n'; auto| |left; exact L|].
  - assert (n' = nc) by congruence; subst; apply rank_le_refl.
  - specialize (Q _ _ Hn' Hc). unfold rank_le, rank; cbn. lia.
Qed.

Lemma known_in q : In q (rtags l) -> exists n, dget s q = Some n.
Proof. intros H. pose proof (r_known s l R q H). destruct (dget s q); [eauto|contradiction]. Qed.

Lemma tooth_height l1 q t2 : forall t1 d l2 n, l = l1 ++ (q, t1 ++ d :: t2) :: l2 -> dget s d = Some n -> height n = S (length t2).
Proof.
  induction t2 as [|e t2 IH]; intros t1 d l2 n Hl Hn; cbn [length].
  - apply (leaf_height d n Hn). intros c Hc. apply (r_edges s l R) in Hc.
    + rewrite Hl in Hc. apply redges_tooth in Hc; [discriminate|]. rewrite <- Hl; apply R.
    + rewrite Hl, rtags_app, in_app_iff; right; cbn; right; rewrite !in_app_iff; left; right; now left.
  - assert (Hd : In d (rtags l)).
    { rewrite Hl, rtags_app, in_app_iff; right; cbn; right; rewrite !in_app_iff; left; right; now left. }
    assert (He : In e (rtags l)).
    { rewrite Hl, rtags_app, in_app_iff; right; cbn; right; rewrite !in_app_iff; left; right; right; now left. }
    destruct (known_in e He) as [m Hm].
    assert (Hl' : l = l1 ++ (q, (t1 ++ [d]) ++ e :: t2) :: l2) by (rewrite <- app_assoc; exact Hl).
    pose proof (IH _ _ _ _ Hl' Hm) as Hh.
    assert (CH : forall c, child_of s c d <-> c = e).
    { intros c. rewrite (r_edges s l R) by exact Hd. rewrite Hl, redges_tooth; [|rewrite <- Hl; apply R].
      cbn. split; congruence. }
    rewrite (best_child_height s d n e m T Hn); [lia| |exact Hm].
    apply (best_of d e m Hm); [now apply CH|]. intros c' n' Hc' _; left; now apply CH.
Qed.
Lemma spine_height l2 : forall l1 q t n, l = l1 ++ (q, t) :: l2 -> dget s q = Some n -> height n = tall_of (lens ((q, t) :: l2)).
Proof.
  induction l2 as [|[q' t'] l2 IH]; intros l1 q t n Hl Hn.
  - assert (Hq : In q (rtags l)) by (rewrite Hl, rtags_app, in_app_iff; right; now left).
    assert (CH : forall c, child_of s c q <-> hd_error t = Some c).
    { intros c. rewrite (r_edges s l R) by exact Hq. rewrite Hl, redges_spine; [|rewrite <- Hl; apply R].
      cbn; split; [intros [H|H]; [exact H|discriminate]|auto]. }
    cbn [lens map tall_of snd]. destruct t as [|c t]; cbn [length].
    + rewrite (leaf_height q n Hn); [reflexivity|]. intros c Hc; apply CH in Hc; discriminate.
    + assert (Hc : In c (rtags l)) by (rewrite Hl, rtags_app, in_app_iff; right; right; now left).
      destruct (known_in c Hc) as [m Hm]. pose proof (tooth_height l1 q t [] c [] m Hl Hm) as Hh.
      rewrite (best_child_height s q n c m T Hn); [lia| |exact Hm].
      apply (best_of q c m Hm); [now apply CH|]. intros c' n' Hc' _; left. apply CH in Hc'. injection Hc' as ->; reflexivity.
  - assert (Hq : In q (rtags l)) by (rewrite Hl, rtags_app, in_app_iff; right; now left).
    assert (Hq' : In q' (rtags l)) by (rewrite Hl, rtags_app, in_app_iff; right; cbn; right; rewrite in_app_iff; right; now left).
    assert (CH : forall c, child_of s c q <-> hd_error t = Some c \/ c = q').
    { intros c. rewrite (r_edges s l R) by exact Hq. rewrite Hl, redges_spine; [|rewrite <- Hl; apply R].
      cbn; split; (intros [H|H]; [auto|right; congruence]). }
    destruct (known_in q' Hq') as [m' Hm'].
    assert (Hl' : l = (l1 ++ [(q, t)]) ++ (q', t') :: l2) by (rewrite <- app_assoc; exact Hl).
    pose proof (IH _ _ _ _ Hl' Hm') as Hh'.
    change (tall_of (lens ((q, t) :: (q', t') :: l2))) with (S (Nat.max (length t) (tall_of (lens ((q', t') :: l2))))).
    rewrite <- Hh'. destruct t as [|c t].
    + cbn [length]; rewrite Nat.max_0_l, (best_child_height s q n q' m' T Hn); [lia| |exact Hm'].
      apply (best_of q q' m' Hm'); [apply CH; auto|]. intros c' n' Hc' _; left. apply CH in Hc' as [C|C]; [discriminate|exact C].
    + assert (Hc : In c (rtags l)) by (rewrite Hl, rtags_app, in_app_iff; right; right; now left).
      destruct (known_in c Hc) as [m Hm]. pose proof (tooth_height l1 q t [] c _ m Hl Hm) as Hh. cbn [length].
      destruct (le_lt_dec (S (length t)) (height m')) as [L|L].
      * rewrite (best_child_height s q n q' m' T Hn); [lia| |exact Hm'].
        apply (best_of q q' m' Hm'); [apply CH; auto|]. intros c' n' Hc' Hn'. apply CH in Hc' as [C|C]; [|now left].
        injection C as <-. assert (n' = m) by congruence; subst n'. right; right; split; [lia|].
        apply (newer_at s l1 q (c :: t) ((q', t') :: l2)); [rewrite <- Hl; apply R|reflexivity|now left].
      * rewrite (best_child_height s q n c m T Hn); [lia| |exact Hm].
        apply (best_of q c m Hm); [apply CH; auto|]. intros c' n' Hc' Hn'. apply CH in Hc' as [C|C]; [left; injection C as ->; reflexivity|].
        subst c'. assert (n' = m') by congruence; subst n'. right; left; lia.
Qed.
(** the preferred child *)
Lemma best_spine l1 q t q' t' l2 : l = l1 ++ (q, t) :: (q', t') :: l2 ->
  length t <= tall_of (lens ((q', t') :: l2)) -> best_child s q q'.
Proof.
  intros Hl L.
  assert (Hq : In q (rtags l)) by (rewrite Hl, rtags_app, in_app_iff; right; now left).
  assert (Hq' : In q' (rtags l)) by (rewrite Hl, rtags_app, in_app_iff; right; cbn; right; rewrite in_app_iff; right; now left).
  destruct (known_in q' Hq') as [m' Hm'].
  assert (Hl' : l = (l1 ++ [(q, t)]) ++ (q', t') :: l2) by (rewrite <- app_assoc; exact Hl).
  pose proof (spine_height _ _ _ _ _ Hl' Hm') as Hh'.
  assert (CH : forall c, child_of s c q <-> hd_error t = Some c \/ c = q').
  { intros c. rewrite (r_edges s l R) by exact Hq. rewrite Hl, redges_spine; [|rewrite <- Hl; apply R].
    cbn; split; (intros [H|H]; [auto|right; congruence]). }
  apply (best_of q q' m' Hm'); [apply CH; auto|]. intros c' n' Hc' Hn'. apply CH in Hc' as [C|C]; [|now left].
  destruct t as [|c t]; [discriminate|]. injection C as <-.
  pose proof (tooth_height l1 q t [] c _ n' Hl Hn') as Hh. cbn [length] in L.
  right; right; split; [lia|].
  apply (newer_at s l1 q (c :: t) ((q', t') :: l2)); [rewrite <- Hl; apply R|reflexivity|now left].
Qed.
Lemma best_tooth l1 q c t l2 : l = l1 ++ (q, c :: t) :: l2 -> tall_of (lens l2) < S (length t) -> best_child s q c.
Proof.
  intros Hl L.
  assert (Hq : In q (rtags l)) by (rewrite Hl, rtags_app, in_app_iff; right; now left).
  assert (Hc : In c (rtags l)) by (rewrite Hl, rtags_app, in_app_iff; right; right; now left).
  destruct (known_in c Hc) as [m Hm]. pose proof (tooth_height l1 q t [] c _ m Hl Hm) as Hh.
  assert (CH : forall c', child_of s c' q <-> c = c' \/ first_of l2 = Some c').
  { intros c'. rewrite (r_edges s l R) by exact Hq. rewrite Hl, redges_spine; [|rewrite <- Hl; apply R].
    cbn; split; (intros [H|H]; [left; congruence|auto]). }
  apply (best_of q c m Hm); [apply CH; auto|]. intros c' n' Hc' Hn'. apply CH in Hc' as [C|C]; [left; congruence|].
  destruct l2 as [|[q' t'] l2]; [discriminate|]. injection C as ->.
  assert (Hl' : l = (l1 ++ [(q, c :: t)]) ++ (c', t') :: l2) by (rewrite <- app_assoc; exact Hl).
  pose proof (spine_height _ _ _ _ _ Hl' Hn') as Hh'. right; left; lia.
Qed.

(** the way along the spine *)
Lemma way_spine l2 q2 t2 p2 : forall l1 l0 d, l = l0 ++ l1 ++ (q2, t2) :: l2 ->
  (forall la q t lb, l1 = la ++ (q, t) :: lb ->
    d + length la < tall_of (lens ((q, t) :: lb ++ (q2, t2) :: l2)) /\ length t <= tall_of (lens (lb ++ (q2, t2) :: l2))) ->
  split_way s (d + length l1) q2 p2 ->
  exists r, first_of (l1 ++ (q2, t2) :: l2) = Some r /\ split_way s d r (map fst l1 ++ p2).
Proof.
  induction l1 as [|[q t] l1 IH]; intros l0 d Hl HC W.
  - exists q2; split; [reflexivity|]. cbn [length] in W; rewrite Nat.add_0_r in W; exact W.
  - exists q; split; [reflexivity|].
    destruct (IH (l0 ++ [(q, t)]) (S d)) as [r [Fr Wr]].
    + rewrite <- app_assoc; exact Hl.
    + intros la q0 t0 lb Q. destruct (HC ((q, t) :: la) q0 t0 lb) as [A1 A2]; [now rewrite Q|].
      cbn [length] in A1; split; [lia|exact A2].
    + cbn [length] in W; replace (S d + length l1) with (d + S (length l1)) by lia; exact W.
    + destruct (HC [] q t l1 eq_refl) as [A1 A2].
      assert (Hq : In q (rtags l)) by (rewrite Hl, rtags_app, in_app_iff; right; now left).
      destruct (known_in q Hq) as [n Hn].
      cbn [map fst app]; apply (way_go s d q n r); [exact Hn| | |exact Wr].
      * rewrite (spine_height _ _ _ _ _ Hl Hn). cbn [length] in A1; rewrite Nat.add_0_r in A1; exact A1.
      * destruct (l1 ++ (q2, t2) :: l2) as [|[q' t'] l3] eqn:Q; [destruct l1; discriminate|].
        injection Fr as <-. apply (best_spine l0 q t q' t' l3); [now rewrite Hl; cbn [app]; rewrite Q|exact A2].
Qed.
End One.

(** ** The shapes *)
Lemma tall_ge a : length a <= tall_of a.
Proof. induction a; cbn; lia. Qed.
Lemma tall_app a b : tall_of (a ++ b) = Nat.max (tall_of a) (length a + tall_of b).
Proof. induction a as [|x a IH]; cbn [app tall_of length]; [reflexivity|]. rewrite IH; lia. Qed.
Lemma tall_repeat t m : 0 < m -> tall_of (repeat t m) = m + t.
Proof.
  induction m as [|m IH]; intros H; [lia|]. cbn [repeat tall_of]. destruct m; [cbn; lia|]. rewrite IH by lia; lia.
Qed.
Lemma tall_repeat_le t m : tall_of (repeat t m) <= m + t.
Proof. destruct m; [cbn; lia|]. now rewrite tall_repeat by lia. Qed.
Lemma skipn_repeat {A} (x : A) i m : skipn i (repeat x m) = repeat x (m - i).
Proof. revert m; induction i; intros [|m]; cbn; auto. Qed.

Lemma firstn_repeat {A} (x : A) i m : firstn i (repeat x m) = repeat x (Nat.min i m).
Proof. revert m; induction i; intros [|m]; cbn; f_equal; auto. Qed.

Definition shapeA k j := repeat k j ++ repeat (k - 1) (k - j).
Definition shapeB k j := repeat k k ++ repeat 0 j.
Lemma tall_A k j i : j < k -> i < k -> tall_of (skipn i (shapeA k j)) = 2 * k - 1 - i.
Proof.
  intros Hj Hi; unfold shapeA. rewrite skipn_app, repeat_length, !skipn_repeat, tall_app, repeat_length.
  rewrite (tall_repeat (k - 1)) by lia.
  pose proof (tall_repeat_le k (j - i)). destruct (j - i) eqn:Q; [cbn [repeat tall_of]|]; lia.
Qed.
Lemma tall_B k j i : j <= k -> i < k -> tall_of (skipn i (shapeB k j)) = 2 * k - i.
Proof.
  intros Hj Hi; unfold shapeB. rewrite skipn_app, repeat_length, !skipn_repeat, tall_app, repeat_length.
  rewrite (tall_repeat k) by lia. pose proof (tall_repeat_le 0 (j - (i - k))). lia.
Qed.
Lemma tall_B_end k j : tall_of (skipn k (shapeB k j)) = j.
Proof.
  unfold shapeB. rewrite skipn_app, repeat_length, !skipn_repeat, Nat.sub_diag, Nat.sub_0_r. cbn [repeat app].
  destruct j; [reflexivity|]. rewrite tall_repeat by lia; lia.
Qed.
Lemma lens_suffix (l a b : rake) : l = a ++ b -> lens b = skipn (length a) (lens l).
Proof. intros ->. unfold lens. rewrite map_app, skipn_app, map_length, Nat.sub_diag, skipn_all2 by (rewrite map_length; lia). reflexivity. Qed.
Lemma lens_prefix (l a b : rake) : l = a ++ b -> lens a = firstn (length a) (lens l).
Proof. intros ->. unfold lens. rewrite map_app, firstn_app, map_length, Nat.sub_diag, firstn_O, app_nil_r, firstn_all2 by (rewrite map_length; lia). reflexivity. Qed.
Lemma lens_length (l : rake) : length (lens l) = length l.
Proof. apply map_length. Qed.
Lemma lens_app (a b : rake) : lens (a ++ b) = lens a ++ lens b.
Proof. apply map_app. Qed.
Lemma lens_nth (a : rake) q t b : nth_error (lens (a ++ (q, t) :: b)) (length a) = Some (length t).
Proof. unfold lens. rewrite map_app, nth_error_app2; rewrite map_length; [|lia]. now rewrite Nat.sub_diag. Qed.
Lemma nth_A k j i : j < k -> i < k -> exists x, nth_error (shapeA k j) i = Some x /\ x <= k /\ (i = k - 1 -> x = k - 1).
Proof.
  intros Hj Hi; unfold shapeA. destruct (le_lt_dec j i).
  - exists (k - 1). rewrite nth_error_app2, repeat_length by (rewrite repeat_length; lia).
    rewrite nth_error_repeat by lia. split; [reflexivity|lia].
  - exists k. rewrite nth_error_app1 by (rewrite repeat_length; lia). rewrite nth_error_repeat by lia. split; [reflexivity|lia].
Qed.
Lemma nth_B k j i : i < k -> nth_error (shapeB k j) i = Some k.
Proof. intros Hi; unfold shapeB. rewrite nth_error_app1 by (rewrite repeat_length; lia). now apply nth_error_repeat. Qed.

(** where the shapes end, and what is met on the way there *)
Lemma dec_A (l : rake) k j : j < k -> lens l = shapeA k j ->
  exists l0 y t, l = l0 ++ [(y, t)] /\ length t = k - 1 /\ length l0 = k - 1 /\ lens l0 = repeat k j ++ repeat (k - 1) (k - 1 - j) /\
    forall la q t' lb, l0 = la ++ (q, t') :: lb ->
      1 + length la < tall_of (lens ((q, t') :: lb ++ [(y, t)])) /\ length t' <= tall_of (lens (lb ++ [(y, t)])).
Proof.
  intros Hj Hl.
  assert (Len : length l = k).
  { rewrite <- lens_length, Hl; unfold shapeA; rewrite app_length, !repeat_length; lia. }
  destruct (exists_last (l := l)) as [l0 [[y t] Q]]; [intros ->; cbn in Len; lia|].
  assert (Len0 : length l0 = k - 1) by (rewrite Q, app_length in Len; cbn in Len; lia).
  assert (Ht : length t = k - 1).
  { destruct (nth_A k j (k - 1) Hj ltac:(lia)) as [x [H1 [_ H2]]]. rewrite <- Hl, Q, <- Len0, lens_nth in H1.
    injection H1 as ->. now apply H2. }
  exists l0, y, t. split; [exact Q|split; [exact Ht|split; [exact Len0|split]]].
  - assert (X : lens l = lens l0 ++ [k - 1]) by (rewrite Q, lens_app; cbn; now rewrite Ht).
    rewrite Hl in X; unfold shapeA in X.
    replace (k - j) with ((k - 1 - j) + 1) in X by lia. rewrite repeat_app, app_assoc in X. cbn [repeat] in X.
    apply app_inj_tail in X as [X _]. now symmetry.
  - intros la q t' lb H.
    assert (HL : l = la ++ (q, t') :: lb ++ [(y, t)]) by (rewrite Q, H, <- app_assoc; reflexivity).
    assert (La : length la + length lb = k - 2 /\ 2 <= k).
    { rewrite H, app_length in Len0; cbn in Len0. lia. }
    rewrite (lens_suffix _ _ _ HL), Hl, tall_A by lia.
    assert (HL' : l = (la ++ [(q, t')]) ++ lb ++ [(y, t)]) by (rewrite <- app_assoc; exact HL).
    rewrite (lens_suffix _ _ _ HL'), Hl, app_length; cbn [length]. rewrite tall_A by lia.
    destruct (nth_A k j (length la) Hj ltac:(lia)) as [x [H1 [H2 _]]]. rewrite <- Hl, HL, lens_nth in H1. injection H1 as <-. lia.
Qed.
Lemma dec_B (l : rake) k j : 0 < k -> j < k -> lens l = shapeB k j ->
  exists l1 q y t l2, l = l1 ++ (q, y :: t) :: l2 /\ length l1 = k - 1 /\ length t = k - 1 /\ lens l2 = repeat 0 j /\
    lens l1 = repeat k (k - 1) /\ tall_of (lens ((q, y :: t) :: l2)) = k + 1 /\
    forall la q' t' lb, l1 = la ++ (q', t') :: lb ->
      1 + length la < tall_of (lens ((q', t') :: lb ++ (q, y :: t) :: l2)) /\ length t' <= tall_of (lens (lb ++ (q, y :: t) :: l2)).
Proof.
  intros H0 Hj Hl.
  assert (Len : length l = k + j).
  { rewrite <- lens_length, Hl; unfold shapeB; rewrite app_length, !repeat_length; lia. }
  destruct (nth_error l (k - 1)) as [[q t0]|] eqn:N; [|apply nth_error_None in N; lia].
  destruct (nth_error_split _ _ N) as [l1 [l2 [Q L1]]].
  assert (Ht : length t0 = k).
  { pose proof (nth_B k j (k - 1) ltac:(lia)) as H. rewrite <- Hl, Q, <- L1, lens_nth in H. now injection H. }
  destruct t0 as [|y t]; [cbn in Ht; lia|]. cbn [length] in Ht.
  assert (Q2 : l = (l1 ++ [(q, y :: t)]) ++ l2) by (rewrite <- app_assoc; exact Q).
  assert (L2 : lens l2 = repeat 0 j).
  { rewrite (lens_suffix _ _ _ Q2), app_length, L1, Hl. cbn [length]. replace (k - 1 + 1) with k by lia.
    unfold shapeB. rewrite skipn_app, repeat_length, !skipn_repeat, Nat.sub_diag, Nat.sub_0_r. reflexivity. }
  exists l1, q, y, t, l2. split; [exact Q|split; [exact L1|split; [lia|split; [exact L2|split; [|split]]]]].
  - rewrite (lens_prefix _ _ _ Q), Hl, L1. unfold shapeB. rewrite firstn_app, repeat_length.
    replace (k - 1 - k) with 0 by lia. rewrite firstn_O, app_nil_r. rewrite firstn_repeat. f_equal; lia.
  - rewrite (lens_suffix _ _ _ Q), Hl, tall_B by lia. lia.
  - intros la q' t' lb H.
    assert (HL : l = la ++ (q', t') :: lb ++ (q, y :: t) :: l2) by (rewrite Q, H, <- app_assoc; reflexivity).
    assert (La : length la + length lb = k - 2 /\ 2 <= k).
    { rewrite H, app_length in L1; cbn in L1. lia. }
    rewrite (lens_suffix _ _ _ HL), Hl, tall_B by lia.
    assert (HL' : l = (la ++ [(q', t')]) ++ lb ++ (q, y :: t) :: l2) by (rewrite <- app_assoc; exact HL).
    rewrite (lens_suffix _ _ _ HL'), Hl, app_length; cbn [length]. rewrite tall_B by lia.
    pose proof (nth_B k j (length la) ltac:(lia)) as H1. rewrite <- Hl, HL, lens_nth in H1. injection H1 as ->. lia.
Qed.
Lemma dec_B_end (l : rake) k : 0 < k -> lens l = shapeB k k ->
  exists l1 y l2, l = l1 ++ (y, []) :: l2 /\ length l1 = k /\ lens l1 = repeat k k /\ lens ((y, []) :: l2) = repeat 0 k /\
    forall la q' t' lb, l1 = la ++ (q', t') :: lb ->
      1 + length la < tall_of (lens ((q', t') :: lb ++ (y, []) :: l2)) /\ length t' <= tall_of (lens (lb ++ (y, []) :: l2)).
Proof.
  intros H0 Hl.
  assert (Len : length l = k + k).
  { rewrite <- lens_length, Hl; unfold shapeB; rewrite app_length, !repeat_length; lia. }
  destruct (nth_error l k) as [[y t0]|] eqn:N; [|apply nth_error_None in N; lia].
  destruct (nth_error_split _ _ N) as [l1 [l2 [Q L1]]].
  assert (L2 : lens ((y, t0) :: l2) = repeat 0 k).
  { rewrite (lens_suffix _ _ _ Q), L1, Hl. unfold shapeB. rewrite skipn_app, repeat_length, !skipn_repeat, Nat.sub_diag, Nat.sub_0_r. reflexivity. }
  assert (Ht : t0 = []).
  { destruct k; [lia|]. cbn in L2. injection L2 as L2 _. destruct t0; [reflexivity|discriminate]. }
  subst t0. exists l1, y, l2. split; [exact Q|split; [exact L1|split; [|split; [exact L2|]]]].
  - rewrite (lens_prefix _ _ _ Q), Hl, L1. unfold shapeB. rewrite firstn_app, repeat_length, Nat.sub_diag, firstn_O, app_nil_r.
    apply firstn_all2. rewrite repeat_length; lia.
  - intros la q' t' lb H.
    assert (HL : l = la ++ (q', t') :: lb ++ (y, []) :: l2) by (rewrite Q, H, <- app_assoc; reflexivity).
    assert (La : length la + length lb = k - 1).
    { rewrite H, app_length in L1; cbn in L1. lia. }
    rewrite (lens_suffix _ _ _ HL), Hl, tall_B by lia.
    assert (HL' : l = (la ++ [(q', t')]) ++ lb ++ (y, []) :: l2) by (rewrite <- app_assoc; exact HL).
    rewrite (lens_suffix _ _ _ HL'), Hl, app_length; cbn [length].
    pose proof (nth_B k k (length la) ltac:(lia)) as H1. rewrite <- Hl, HL, lens_nth in H1. injection H1 as ->.
    destruct lb as [|b lb].
    + cbn in La. replace (length la + 1) with k by lia. rewrite tall_B_end. lia.
    + cbn [length] in La. rewrite tall_B by lia. lia.
Qed.

Section Ways.
Variable s : nodes K.
Variable T : tree_ok s.
Variable l : rake.
Variable R : raked s l.

Lemma way_A k j : j < k -> lens l = shapeA k j ->
  exists l0 y t r, l = l0 ++ [(y, t)] /\ length t = k - 1 /\ lens l0 = repeat k j ++ repeat (k - 1) (k - 1 - j) /\
    first_of l = Some r /\ split_way s 1 r (map fst l0 ++ [y]).
Proof.
  intros Hj Hl. destruct (dec_A l k j Hj Hl) as [l0 [y [t [Q [Ht [Len0 [L0 HC]]]]]]]. exists l0, y, t.
  destruct (way_spine s T l R [] y t [y] l0 [] 1 Q HC) as [r [Fr W]].
  - assert (Hy : In y (rtags l)) by (rewrite Q, rtags_app, in_app_iff; right; now left).
    destruct (known_in s l R y Hy) as [n Hn]. apply (way_stop s _ y n Hn).
    rewrite (spine_height s T l R [] l0 y t n Q Hn). cbn. lia.
  - exists r. rewrite Q. auto.
Qed.
Lemma way_B k j : 0 < k -> j < k -> lens l = shapeB k j ->
  exists l1 q y t l2 r, l = l1 ++ (q, y :: t) :: l2 /\ length l1 = k - 1 /\ length t = k - 1 /\ lens l2 = repeat 0 j /\
    lens l1 = repeat k (k - 1) /\ first_of l = Some r /\ split_way s 1 r ((map fst l1 ++ [q]) ++ [y]).
Proof.
  intros H0 Hj Hl. destruct (dec_B l k j H0 Hj Hl) as [l1 [q [y [t [l2 [Q [L1 [Ht [L2 [Ln1 [Hq HC]]]]]]]]]]].
  exists l1, q, y, t, l2.
  destruct (way_spine s T l R l2 q (y :: t) [q; y] l1 [] 1 Q HC) as [r [Fr W]].
  - assert (Iq : In q (rtags l)) by (rewrite Q, rtags_app, in_app_iff; right; now left).
    assert (Iy : In y (rtags l)) by (rewrite Q, rtags_app, in_app_iff; right; right; now left).
    destruct (known_in s l R q Iq) as [n Hn], (known_in s l R y Iy) as [m Hm].
    apply (way_go s _ q n y [y] Hn).
    + rewrite (spine_height s T l R l2 l1 q _ n Q Hn), Hq. lia.
    + apply (best_tooth s T l R l1 q y t l2 Q). rewrite L2. pose proof (tall_repeat_le 0 j). lia.
    + apply (way_stop s _ y m Hm). rewrite (tooth_height s T l R l1 q t [] y l2 m Q Hm). lia.
  - exists r. rewrite Q. repeat (split; [first [reflexivity|assumption]|]). rewrite <- app_assoc; exact W.
Qed.
Lemma way_B_end k : 0 < k -> lens l = shapeB k k ->
  exists l1 y l2 r, l = l1 ++ (y, []) :: l2 /\ lens l1 = repeat k k /\ lens ((y, []) :: l2) = repeat 0 k /\
    first_of l = Some r /\ split_way s 1 r (map fst l1 ++ [y]).
Proof.
  intros H0 Hl. destruct (dec_B_end l k H0 Hl) as [l1 [y [l2 [Q [L1 [Ln1 [L2 HC]]]]]]]. exists l1, y, l2.
  destruct (way_spine s T l R l2 y [] [y] l1 [] 1 Q HC) as [r [Fr W]].
  - assert (Hy : In y (rtags l)) by (rewrite Q, rtags_app, in_app_iff; right; now left).
    destruct (known_in s l R y Hy) as [m Hm]. apply (way_stop s _ y m Hm).
    rewrite (spine_height s T l R l2 l1 y [] m Q Hm), L2. pose proof (tall_repeat_le 0 k). lia.
  - exists r. rewrite Q. repeat (split; [first [reflexivity|assumption]|]). exact W.
Qed.
End Ways.
End Shape.
