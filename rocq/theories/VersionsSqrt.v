(** A retrieval replays at most in the order of the square root of the number of
    versions. *)
From Coq Require Import ZArith Lia.
From Verif Require Import Base Changesets Serialize Tokenizers SpecTokenizers Tree SpecTree TreeProofs TreeExact
  Versions SpecVersions VersionsInv VersionsProofs TreeComb DbTree DbTreeProofs SpecDb DbVersions.
Local Open Scope nat_scope.

Section H.
Context {K : Type} {E : Teq K} {O : TeqOk K}.
Variable re_w : Z -> bool.
Variable tk : tkind.
Variables HS DS : store K.
Variable TR : tree_impl K.
Variable HL : store_law HS.
Variable DL : store_law DS.
Variable TL : tree_law TR.
Context {TX : Exact TL}.
Notation run := (run re_w tk HS DS TR).
Notation hist_inv := (hist_inv re_w tk HS DS TR HL DL TL).

Theorem hist_combed h : tk <> KLine -> fresh tk h -> exists s, hist_inv h (run v_empty h) s /\ combed s.
Proof.
  intros Hk. induction h as [|a h IH] using rev_ind; intros F.
  - exists []; split; [apply hist_nil|]. intros t n Hn; discriminate.
  - destruct (fresh_snoc _ _ _ F) as [F' [Hna [Hb _]]]. destruct (IH F') as [s [I Cb]].
    destruct (hist_step re_w tk HS DS TR HL DL TL h _ s a I F (or_introl Hk)) as [[s' [I' Hch]] _].
    rewrite run_snoc. exists s'; split; [exact I'|].
    assert (T : tree_ok s) by exact (rep_ok _ TL _ _ (c_rep _ _ _ _ _ _ _ _ _ _ _ _ (h_core _ _ _ _ _ _ _ _ _ _ _ I))).
    assert (T' : tree_ok s') by exact (rep_ok _ TL _ _ (c_rep _ _ _ _ _ _ _ _ _ _ _ _ (h_core _ _ _ _ _ _ _ _ _ _ _ I'))).
    assert (Known : forall t, dget s' t <> None <-> t = tag_of a \/ dget s t <> None).
    { intros t. rewrite (known_added re_w tk HS DS TR HL DL TL _ _ _ t I'), (known_added re_w tk HS DS TR HL DL TL _ _ _ t I).
      unfold added. rewrite map_app, in_app_iff; cbn [map In].
      destruct (in_dec T_dec t (map tag_of h)); split; intros H; try tauto.
      - left. destruct (T_dec t (tag_of a)); [assumption|]. exfalso; apply H; intros [?|[?|[]]]; congruence.
      - destruct H as [->|H]; tauto. }
    assert (Ntag : dget s (tag_of a) = None) by (now apply (known_added re_w tk HS DS TR HL DL TL _ _ _ _ I)).
    assert (Noc : forall c, ~ child_of s c (tag_of a)).
    { intros c Hc. apply (child_known re_w tk HS DS TR HL DL TL (V_of h) (run v_empty h) s None) in Hc; [|apply I]. congruence. }
    destruct Hch as [[Hbad Hch]|[x [p [Hx [Hhx [Hw Hch]]]]]].
    + apply (combed_same s s'); auto.
      * intros t Ht; apply Known; auto.
      * intros t n Hn Hp. destruct (T_dec t (tag_of a)) as [->|Ht]; [now right|left].
        destruct (dget s t) as [m|] eqn:Hm.
        -- exists m; split; [reflexivity|]. destruct (parent m) as [q|] eqn:Q; [|reflexivity].
           assert (C : child_of s' t q) by (apply Hch; exists m; auto). destruct C as [n' [C1 C2]]. congruence.
        -- exfalso. destruct (proj1 (Known t)) as [?|?]; congruence.
    + destruct (dget s x) as [n|] eqn:Hn.
      2: { apply (known_added re_w tk HS DS TR HL DL TL _ _ _ _ I) in Hn. apply is_head_added in Hhx. contradiction. }
      assert (Hp : parent n = None) by (now apply (h_head _ _ _ _ _ _ _ _ _ _ _ I x n)).
      apply (combed_put s s' (tag_of a) x n p T (proj1 (tree_ok_exact _ T')) Ntag Hn Hp (proj2 Hw exact_ranks)); auto.
      * split; assumption.
      * intros t m Ht Hm Hpm. destruct (dget s t) as [m0|] eqn:Hm0.
        -- exists m0; split; [reflexivity|]. destruct (parent m0) as [q|] eqn:Q; [|reflexivity].
           exfalso. assert (Hc0 : child_of s t q) by (exists m0; auto).
           assert (C : exists q', child_of s' t q').
           { destruct (T_dec t x) as [->|Htx]; [exists (tag_of a); apply Hch; auto|].
             destruct (T_dec t (last p x)) as [->|Htp]; [exists (tag_of a); apply Hch; auto|].
             exists q; apply Hch; auto. }
           destruct C as [q' [n' [C1 C2]]]. congruence.
        -- exfalso. destruct (proj1 (Known t)) as [?|?]; congruence.
Qed.

Theorem sqrt_paths h : tk <> KLine -> fresh tk h -> exists s, rep TL (tree (run v_empty h)) s /\
  (forall t, added h t -> exists r n p, tr_path_to TR (tree (run v_empty h)) t = Ok (Some (r :: p)) /\
    dget s r = Some n /\ parent n = None /\ (length p + 1) * (length p + 3) <= 8 * size n /\ size n <= length h) /\
  (forall x, is_head h x -> exists n p, tr_get_split TR (tree (run v_empty h)) x = Ok (last p x, p) /\
    dget s x = Some n /\ length p * (length p - 1) <= 2 * size n /\ size n <= length h).
Proof.
  intros Hk F. destruct (hist_combed h Hk F) as [s [I Cb]].
  pose proof (c_rep _ _ _ _ _ _ _ _ _ _ _ _ (h_core _ _ _ _ _ _ _ _ _ _ _ I)) as R.
  pose proof (rep_ok _ TL _ _ R) as T. pose proof (tree_ok_exact s T) as [_ X]. exists s; split; [exact R|].
  assert (Len : forall t n, dget s t = Some n -> size n <= length h).
  { intros t n Hn. pose proof (size_keys s t n T Hn) as L.
    replace (length h) with (length (map tag_of h)) by apply map_length.
    rewrite <- (h_keys _ _ _ _ _ _ _ _ _ _ _ I). unfold dkeys; rewrite map_length; exact L. }
  split.
  - intros t Ha. destruct (inv_up re_w tk HS DS TR HL DL TL h _ s t I Ha) as [l Hl].
    destruct (up_down _ _ _ Hl) as [r [n [Hr [Hp [Hd [_ [p Hrev]]]]]]].
    exists r, n, p. rewrite (rep_path _ TL _ s t l R Hl), Hrev.
    pose proof (combed_bound s r n (rev l) T Cb Hr Hp Hd) as B. rewrite Hrev in B; cbn [length] in B.
    split; [reflexivity|]. split; [exact Hr|]. split; [exact Hp|]. split; [|eapply Len; eauto]. nia.
  - intros x Hx. destruct (dget s x) as [n|] eqn:Hn.
    2: { apply (known_added re_w tk HS DS TR HL DL TL _ _ _ _ I) in Hn. apply is_head_added in Hx. contradiction. }
    destruct (rep_way _ TL _ s x n R Hn) as [p [Hp Hw]]. exists n, p. split; [exact Hp|]. split; [reflexivity|].
    split; [|eapply Len; eauto].
    assert (Hpar : parent n = None) by (now apply (h_head _ _ _ _ _ _ _ _ _ _ _ I x n)).
    destruct (X x n Hn) as [_ [[[q [Hq Lq]] Hmax] _]].
    assert (H1 : 1 <= height n).
    { specialize (Hmax [x] ltac:(apply down_one; congruence)). exact Hmax. }
    destruct (split_way_middle s 1 x p T Hw n Hn) as [n' [_ [L1 L2]]]; [lia|].
    pose proof (combed_bound s x n q T Cb Hn Hpar Hq) as B.
    assert (Hd : 2 * length p <= height n + 2) by lia. rewrite Lq in B.
    assert (1 <= length p) by (destruct (down_first _ _ _ (split_way_down _ _ _ _ Hw)) as [p' ->]; cbn [length]; apply le_n_S, Nat.le_0_l).
    remember (length p - 1) as e. replace (length p) with (S e) in * by lia.
    pose proof (Nat.mul_le_mono (2 * e) (height n) (2 * e + 2) (height n + 2) ltac:(lia) ltac:(lia)). nia.
Qed.
End H.

Section Both.
Context {K : Type} {E : Teq K} {O : TeqOk K}.
Variable re_w : Z -> bool.
Variable tk : tkind.
Notation D := (dict_store K).
Notation C := (db_store K).
Notation M := (memory_tree K).
Notation T := (db_tree K).

Theorem sqrt_memory h : tk <> KLine -> fresh tk h ->
  let s := tree (run re_w tk D D M v_empty h) in
  (forall t, added h t -> exists r n p, m_path_to s t = Ok (Some (r :: p)) /\
    dget s r = Some n /\ parent n = None /\ (length p + 1) * (length p + 3) <= 8 * size n /\ size n <= length h) /\
  (forall x, is_head h x -> exists n p, m_get_split s x = Ok (last p x, p) /\
    dget s x = Some n /\ length p * (length p - 1) <= 2 * size n /\ size n <= length h).
Proof.
  intros Hk F s. destruct (sqrt_paths re_w tk D D M dict_law dict_law memory_law h Hk F) as [s0 [[R _] P]].
  cbn [tr_path_to tr_get_split memory_tree] in P. rewrite <- R in P. exact P.
Qed.
Theorem sqrt_db place1 place2 h : tk <> KLine -> fresh tk h ->
  let s := tree (run re_w tk (C place1) (C place2) T v_empty h) in
  (forall t, added h t -> exists p, d_path_to s t = Ok (Some p) /\ length p * (length p + 2) <= 8 * length h) /\
  (forall x, is_head h x -> exists p, d_get_split s x = Ok (last p x, p) /\ length p * (length p - 1) <= 2 * length h).
Proof.
  intros Hk F s. destruct (sqrt_paths re_w tk (C place1) (C place2) T (db_store_law place1) (db_store_law place2) db_law h Hk F)
    as [s0 [_ [P1 P2]]]. split.
  - intros t Ha. destruct (P1 t Ha) as [r [n [p [H1 [_ [_ [H2 H3]]]]]]]. exists (r :: p). split; [exact H1|]. cbn [length]. nia.
  - intros x Hx. destruct (P2 x Hx) as [n [p [H1 [_ [H2 H3]]]]]. exists p. split; [exact H1|lia].
Qed.
End Both.
