(** The exact lengths of the ways of retrievals and adds (C66). *)
From Coq Require Import ZArith Lia Permutation.
From Verif Require Import Base Changesets Serialize Tokenizers SpecTokenizers Tree SpecTree TreeProofs TreeExact
  Versions SpecVersions SpecLine VersionsInv VersionsProofs TreeComb TreeShape TreeRake SpecWays WaysNumbers TreeWays DbTree DbTreeProofs SpecDb DbVersions.
Local Open Scope nat_scope.

Section Lines.
Context {K : Type}.
Implicit Type h : list (adding K).
Lemma line_added h x l : line h x l -> added h x.
Proof.
  induction 1; unfold added in *; rewrite map_app, in_app_iff; cbn; auto.
Qed.
Lemma line_unique h x l : NoDup (map tag_of h) -> line h x l -> forall l', line h x l' -> l = l'.
Proof.
  intros N H; revert N. induction H as [h a H|h a x l B Hx H IH|h a x l B H IH]; intros N l' H';
    rewrite map_app in N; destruct (nodup_app _ _ N) as [N1 [_ D]]; inversion H' as [h2 a2 G Q1 Q2|h2 a2 x2 l2 G1 G2 G3 Q1 Q2|h2 a2 x2 l2 G1 G2 Q1 Q2];
    apply app_inj_tail in Q1 as [-> ->]; subst; try reflexivity.
  - rewrite G1 in H. contradiction.
  - exfalso; apply (D (tag_of a)); [exact (line_added _ _ _ G2)|now left].
  - rewrite B in G. contradiction.
  - f_equal. apply IH; [exact N1|]. assert (x2 = x) by congruence; subst; exact G3.
  - exfalso; apply (D (tag_of a)); [exact (line_added _ _ _ G2)|now left].
  - exfalso; apply (D (tag_of a)); [exact (line_added _ _ _ H)|now left].
  - exfalso; apply (D (tag_of a)); [exact (line_added _ _ _ H)|now left].
  - apply IH; [exact N1|exact G2].
Qed.
End Lines.

Section Trees.
Context {K : Type} {E : Teq K} {O : TeqOk K}.
Implicit Type s : nodes K.

(** a rake holds what is below its first version *)
Lemma chain_below s q t : forall (l : rake), raked s l -> (forall u v, In (u, v) (chain q t) -> In (u, v) (redges l)) ->
  dget s q <> None -> forall c, In c (q :: t) -> below s q c.
Proof.
  revert q; induction t as [|d t IH]; intros q l R H Hq c [<-|Hc]; try (now apply below_refl); [destruct Hc|].
  assert (Hd : child_of s d q).
  { assert (X : In (q, d) (redges l)) by (apply H; now left). apply (r_edges s l R); [exact (redges_source _ _ _ X)|exact X]. }
  apply (below_child s q d c Hd). apply (IH d l R); [intros; apply H; now right| |exact Hc].
  destruct Hd as [n [Hn _]]; congruence.
Qed.
Lemma rake_below s (l : rake) : raked s l -> forall l2 l1 q, l = l1 ++ l2 -> first_of l2 = Some q -> forall c, In c (rtags l2) -> below s q c.
Proof.
  intros R. induction l2 as [|[q0 t] l2 IH]; intros l1 q Hl F c Hc; [discriminate|]. injection F as ->.
  assert (Hq : In q (rtags l)) by (rewrite Hl, rtags_app, in_app_iff; right; now left).
  change (rtags ((q, t) :: l2)) with ((q :: t) ++ rtags l2) in Hc. apply in_app_iff in Hc as [Hc|Hc].
  - apply (chain_below s q t l R); [|now apply (r_known s l R)|exact Hc].
    intros u v H. rewrite Hl, redges_app. right; right. apply redges_cons; now left.
  - destruct l2 as [|[q' t'] l2]; [destruct Hc|].
    apply (below_child s q q' c).
    + apply (r_edges s l R); [exact Hq|]. rewrite Hl, redges_app. right; right. apply redges_cons; right; left; auto.
    + apply (IH (l1 ++ [(q, t)])); [rewrite <- app_assoc; exact Hl|reflexivity|exact Hc].
Qed.
Lemma below_rake s (l : rake) : raked s l -> forall q d, In q (rtags l) -> below s q d -> In d (rtags l).
Proof.
  intros R q d Hq [p [Hd El]]. revert Hq d El. induction Hd as [q _|q c p Hc H IH]; intros Hq d El.
  - cbn in El; subst; exact Hq.
  - assert (Hc' : In c (rtags l)) by (apply (r_edges s l R) in Hc; [|exact Hq]; exact (redges_in _ _ _ Hc)).
    apply (IH Hc'). rewrite <- El. destruct (down_first _ _ _ H) as [p' ->]. rewrite last_cons. apply last_irrel.
Qed.
Lemma rake_height s (l : rake) x n : tree_ok s -> raked s l -> first_of l = Some x -> dget s x = Some n -> height n = tall_of (lens l).
Proof.
  intros T R F Hn. destruct l as [|[q t] l]; [discriminate|]. injection F as ->.
  exact (spine_height s T _ R l [] x t n eq_refl Hn).
Qed.
(** raked trees that do not change *)
Lemma raked_same s s' (l : rake) : raked s l -> (forall t, In t (rtags l) -> dget s' t <> None) ->
  (forall q c, In q (rtags l) -> (child_of s' c q <-> child_of s c q)) ->
  (forall t n n', dget s t = Some n -> dget s' t = Some n' -> order_id n' = order_id n) -> raked s' l.
Proof.
  intros R Kn Hc Ord. split; [apply R|exact Kn| |].
  - intros q c Hq. rewrite (Hc q c Hq). now apply R.
  - apply (newer_keep s s'); [|apply R]. intros c q A B H nc nq A' B'.
    destruct (known_in s l R c A) as [m Hm], (known_in s l R q B) as [m' Hm'].
    rewrite (Ord _ _ _ Hm A'), (Ord _ _ _ Hm' B'). now apply H.
Qed.
Lemma older_same s s' (l : rake) c q : raked s l -> In c (rtags l) -> In q (rtags l) ->
  (forall t n n', dget s t = Some n -> dget s' t = Some n' -> order_id n' = order_id n) -> older s c q -> older s' c q.
Proof.
  intros R A B Ord H nc nq A' B'. destruct (known_in s l R c A) as [m Hm], (known_in s l R q B) as [m' Hm'].
  rewrite (Ord _ _ _ Hm A'), (Ord _ _ _ Hm' B'). now apply H.
Qed.
Lemma raked_one s (a : K) : dget s a <> None -> (forall c, ~ child_of s c a) -> raked s [(a, [])].
Proof.
  intros Ka Noc. split.
  - cbn; constructor; [intros []|constructor].
  - intros q [<-|[]]; exact Ka.
  - intros q c [<-|[]]. cbn; split; [intros H; now apply Noc in H|intros []].
  - cbn; auto.
Qed.

(** the numbers of the shapes *)
Lemma phase_tall n a : phase n a ->
  (tall_of a + 1) * (tall_of a + 1) <= 4 * n + 1 /\ 4 * n + 1 < (tall_of a + 2) * (tall_of a + 2).
Proof.
  intros [k [j [[H [-> ->]]|[H0 [H [-> ->]]]]]].
  - assert (Q : tall_of (shapeA k j) = 2 * k - 1) by (pose proof (tall_A k j 0 H ltac:(lia)) as X; cbn [skipn] in X; rewrite X; lia).
    rewrite Q. replace (2 * k - 1 + 1) with (2 * k) by lia. replace (2 * k - 1 + 2) with (2 * k + 1) by lia. nia.
  - assert (Q : tall_of (shapeB k j) = 2 * k) by (pose proof (tall_B k j 0 H ltac:(lia)) as X; cbn [skipn] in X; rewrite X; lia).
    rewrite Q. nia.
Qed.
Lemma phase_way s (l : rake) n x p : tree_ok s -> numbered s -> raked s l -> first_of l = Some x -> phase n (lens l) ->
  split_way s 1 x p -> length p = Nat.div2 (tall_of (lens l)) + 1.
Proof.
  intros T Nu R Fx [k [j Ph]] W.
  assert (Any : forall p', split_way s 1 x p' -> p' = p) by (intros p' H; exact (way_unique s 1 x p' Nu H p W)).
  destruct Ph as [[Hj [Hl ->]]|[H0 [Hj [Hl ->]]]].
  - assert (Q : tall_of (lens l) = S (2 * (k - 1))) by (rewrite Hl; pose proof (tall_A k j 0 Hj ltac:(lia)) as X; cbn [skipn] in X; rewrite X; lia).
    rewrite Q, Nat.div2_succ_double.
    destruct (way_A s T l R k j Hj Hl) as [l0 [y [t [r [Q' [Ht [L0 [Fr W']]]]]]]].
    assert (r = x) by congruence; subst r. rewrite <- (Any _ W'), app_length, map_length; cbn [length].
    rewrite <- lens_length, L0, app_length, !repeat_length. lia.
  - assert (Q : tall_of (lens l) = 2 * k) by (rewrite Hl; pose proof (tall_B k j 0 Hj ltac:(lia)) as X; cbn [skipn] in X; rewrite X; lia).
    rewrite Q, Nat.div2_double. destruct (Nat.eq_dec j k) as [->|Ek].
    + destruct (way_B_end s T l R k H0 Hl) as [l1 [y [l2 [r [Q' [L1 [L2 [Fr W']]]]]]]].
      assert (r = x) by congruence; subst r. rewrite <- (Any _ W'), app_length, map_length; cbn [length].
      rewrite <- lens_length, L1, repeat_length. lia.
    + destruct (way_B s T l R k j H0 ltac:(lia) Hl) as [l1 [q [y [t [l2 [r [Q' [Ln1 [Ht [L2 [L1 [Fr W']]]]]]]]]]]].
      assert (r = x) by congruence; subst r. rewrite <- (Any _ W'), !app_length, map_length; cbn [length]. lia.
Qed.
End Trees.

Section H.
Context {K : Type} {E : Teq K} {O : TeqOk K}.
Variable re_w : Z -> bool.
Variable tk : tkind.
Variables HS DS : store K.
Variable TR : tree_impl K.
Variable HL : store_law HS.
Variable DL : store_law DS.
Variable TL : tree_law TR.
Context {TX : Exact TL}.
Notation run := (run re_w tk HS DS TR).
Notation hist_inv := (hist_inv re_w tk HS DS TR HL DL TL).

Definition shaped h (s : nodes K) : Prop := forall r n, dget s r = Some n -> parent n = None ->
  exists l ls, raked s l /\ first_of l = Some r /\ line h r ls /\ Permutation (rtags l) ls /\ phase (length ls) (lens l) /\
    (forall c, In c (rtags l) -> c <> r -> older s c r) /\ (exists k, map fst l = firstn k ls) /\ hung s ls.

Lemma inv_numbered h v s : fresh tk h -> hist_inv h v s -> numbered s.
Proof.
  intros [N _] I. split; [rewrite (h_keys _ _ _ _ _ _ _ _ _ _ _ I); exact N|].
  intros t n Hn. rewrite (h_keys _ _ _ _ _ _ _ _ _ _ _ I). exact (h_order _ _ _ _ _ _ _ _ _ _ _ I t n Hn).
Qed.

Theorem hist_shaped h : tk <> KLine -> fresh tk h -> exists s, hist_inv h (run v_empty h) s /\ shaped h s.
Proof.
  intros Hk. induction h as [|a h IH] using rev_ind; intros F.
  - exists []; split; [apply hist_nil|]. intros t n Hn; discriminate.
  - destruct (fresh_snoc _ _ _ F) as [F' [Hna [Hb _]]]. destruct (IH F') as [s [I Cb]].
    destruct (hist_step re_w tk HS DS TR HL DL TL h _ s a I F (or_introl Hk)) as [[s' [I' Hch]] _].
    rewrite run_snoc. exists s'; split; [exact I'|].
    assert (T : tree_ok s) by exact (rep_ok _ TL _ _ (c_rep _ _ _ _ _ _ _ _ _ _ _ _ (h_core _ _ _ _ _ _ _ _ _ _ _ I))).
    assert (Known : forall t, dget s' t <> None <-> t = tag_of a \/ dget s t <> None).
    { intros t. rewrite (known_added re_w tk HS DS TR HL DL TL _ _ _ t I'), (known_added re_w tk HS DS TR HL DL TL _ _ _ t I).
      unfold added. rewrite map_app, in_app_iff; cbn [map In].
      destruct (in_dec T_dec t (map tag_of h)); split; intros H; try tauto.
      - left. destruct (T_dec t (tag_of a)); [assumption|]. exfalso; apply H; intros [?|[?|[]]]; congruence.
      - destruct H as [->|H]; tauto. }
    assert (Ntag : dget s (tag_of a) = None) by (now apply (known_added re_w tk HS DS TR HL DL TL _ _ _ _ I)).
    assert (Ktag : dget s' (tag_of a) <> None) by (apply Known; auto).
    assert (Noc : forall c, ~ child_of s c (tag_of a)).
    { intros c Hc. apply (child_known re_w tk HS DS TR HL DL TL (V_of h) (run v_empty h) s None) in Hc; [|apply I]. congruence. }
    assert (Ord : forall t n n', dget s t = Some n -> dget s' t = Some n' -> order_id n' = order_id n).
    { intros t n n' Hn Hn'. pose proof (h_order _ _ _ _ _ _ _ _ _ _ _ I t n Hn) as A.
      pose proof (h_order _ _ _ _ _ _ _ _ _ _ _ I' t n' Hn') as B.
      assert (L : order_id n < length (map tag_of h)) by (apply nth_error_Some; congruence).
      destruct F as [N _]. symmetry. apply (proj1 (NoDup_nth_error _) N).
      - rewrite map_app, app_length; lia.
      - rewrite B, map_app, nth_error_app1 by exact L. exact A. }
    assert (New : forall t, dget s t <> None -> older s' t (tag_of a)).
    { intros t Ht n' na Hn' Hna'. destruct (dget s t) as [n|] eqn:Hn; [|contradiction].
      rewrite (Ord t n n' Hn Hn').
      pose proof (h_order _ _ _ _ _ _ _ _ _ _ _ I t n Hn) as A.
      assert (L : order_id n < length (map tag_of h)) by (apply nth_error_Some; congruence).
      pose proof (h_order _ _ _ _ _ _ _ _ _ _ _ I' _ na Hna') as B. rewrite map_app in B.
      destruct (le_lt_dec (length (map tag_of h)) (order_id na)) as [G|G]; [lia|].
      rewrite nth_error_app1 in B by exact G. apply nth_error_In in B. contradiction. }
    assert (KR : forall l, raked s l -> forall t, In t (rtags l) -> dget s' t <> None).
    { intros l R t Ht. apply Known; right. now apply (r_known s l R). }
    assert (Old : forall r n, r <> tag_of a -> dget s' r = Some n -> parent n = None ->
              (forall c q, child_of s c q -> exists q', child_of s' c q') ->
              exists m, dget s r = Some m /\ parent m = None).
    { intros r n Hr Hn Hp Up. destruct (dget s r) as [m|] eqn:Hm.
      - exists m; split; [reflexivity|]. destruct (parent m) as [q|] eqn:Q; [|reflexivity].
        destruct (Up r q) as [q' [n' [C1 C2]]]; [exists m; auto|]. congruence.
      - exfalso. destruct (proj1 (Known r)) as [?|?]; congruence. }
    destruct Hch as [[Hbad Hch]|[x [p [Hx [Hhx [Hw Hch]]]]]]; intros r n Hn Hp.
    + destruct (T_dec r (tag_of a)) as [->|Hr].
      * exists [(tag_of a, [])], [tag_of a]. split; [apply raked_one; [exact Ktag|]|].
        { intros c Hc; apply Hch in Hc; now apply Noc in Hc. }
        split; [reflexivity|split; [now apply line_first|split; [reflexivity|split; [apply phase_one|split; [|split; [now exists 1|]]]]]].
        -- intros c [<-|[]] C; contradiction.
        -- apply hung_one. intros c Hc; apply Hch in Hc; now apply Noc in Hc.
      * destruct (Old r n Hr Hn Hp) as [m [Hm Hpm]]; [intros c q C; exists q; now apply Hch|].
        destruct (Cb r m Hm Hpm) as [l [ls [R [Fr [Ln [P [Ph [Top [Sp Hu]]]]]]]]]. exists l, ls.
        split; [apply (raked_same s s' l R (KR l R)); auto|]. split; [exact Fr|split; [|split; [exact P|split; [exact Ph|split; [|split; [exact Sp|]]]]]].
        -- apply line_keep; [|exact Ln]. intros C. rewrite C in Hbad. apply Hbad. now apply (h_head _ _ _ _ _ _ _ _ _ _ _ I r m).
        -- intros c Hc Ne. apply (older_same s s' l); auto. now apply first_in.
        -- apply (hung_same s s' ls); [|exact Hu]. intros q c _. apply Hch.
    + destruct (dget s x) as [nx|] eqn:Hnx.
      2: { apply (known_added re_w tk HS DS TR HL DL TL _ _ _ _ I) in Hnx. apply is_head_added in Hhx. contradiction. }
      assert (Hpx : parent nx = None) by (now apply (h_head _ _ _ _ _ _ _ _ _ _ _ I x nx)).
      destruct (Cb x nx Hnx Hpx) as [l [ls [R [Fx [Ln [P [Ph [Top [[k Sp] Hg]]]]]]]]].
      destruct (T_dec r (tag_of a)) as [->|Hr].
      * destruct (phase_step s s' (tag_of a) x p l (length ls) T (inv_numbered h _ s F' I) R Ph Fx (proj2 Hw exact_ranks) Ntag Ktag) as [l' [R' [Ph' [Fa [P' [k' Sp']]]]]]; auto.
        { intros t Ht; apply Known; auto. }
        exists l', (tag_of a :: ls). split; [exact R'|split; [exact Fa|split; [|split; [|split; [exact Ph'|split; [|split]]]]]].
        -- apply (line_next h a x ls Hx Hhx Ln).
        -- rewrite P'. now apply perm_skip.
        -- intros c Hc Ne. apply New. apply (Permutation_in c P') in Hc as [Hc|Hc]; [congruence|]. now apply (r_known s l R).
        -- exists (S (min k' k)). rewrite Sp', Sp, firstn_firstn. reflexivity.
        -- destruct (phase_moves s x p l ls k T (inv_numbered h _ s F' I) R Ph Fx (proj2 Hw exact_ranks) Sp P Hg) as [y [My Hy]].
           apply (hung_step s s' (tag_of a) x (last p x) ls y); auto.
           ++ apply (Permutation_NoDup P), R.
           ++ intros C. apply (Permutation_in _ (Permutation_sym P)) in C. now apply (r_known s l R) in C.
           ++ destruct l as [|[q t] l0]; [discriminate|]. injection Fx as ->. destruct k, ls; try discriminate. now injection Sp as ->.
      * assert (Hry : r <> x /\ r <> last p x).
        { split; intros ->.
          - assert (C : child_of s' x (tag_of a)) by (apply Hch; auto). destruct C as [m [C1 C2]]; congruence.
          - assert (C : child_of s' (last p x) (tag_of a)) by (apply Hch; auto). destruct C as [m [C1 C2]]; congruence. }
        destruct (Old r n Hr Hn Hp) as [m [Hm Hpm]].
        { intros c q C. destruct (T_dec c x) as [->|Hcx]; [exists (tag_of a); apply Hch; auto|].
          destruct (T_dec c (last p x)) as [->|Hcp]; [exists (tag_of a); apply Hch; auto|].
          exists q; apply Hch; auto. }
        destruct (Cb r m Hm Hpm) as [lr [lsr [Rr [Frr [Lnr [Pr [Phr [Topr [Spr Hur]]]]]]]]].
        assert (Dis : forall d, below s x d -> ~ In d (rtags lr)).
        { intros d Hd Hin. pose proof (rake_below s lr Rr lr [] r eq_refl Frr d Hin) as Hd'.
          assert (Kd : dget s d <> None) by now apply (r_known s lr Rr).
          destruct (proj1 (tree_ok_exact s T) d Kd) as [u Hu].
          pose proof (root_of_below s x nx d u Hnx Hpx Hd Hu). pose proof (root_of_below s r m d u Hm Hpm Hd' Hu). destruct Hry; congruence. }
        assert (Cr : forall q c, In q (rtags lr) -> (child_of s' c q <-> child_of s c q)).
        { intros q c Hq. rewrite Hch. split.
           ++ intros [[-> _]|[_ [_ C]]]; [|exact C]. exfalso. apply (r_known s lr Rr) in Hq. contradiction.
           ++ intros C. right. assert (Hc : In c (rtags lr)).
              { apply (r_edges s lr Rr) in C; [|exact Hq]. exact (redges_in _ _ _ C). }
              split; [|split; [|exact C]]; intros ->.
              ** apply (Dis x); [apply below_refl; congruence|exact Hc].
              ** apply (Dis (last p x)); [|exact Hc]. exists p; split; [exact (proj1 Hw)|reflexivity]. }
        exists lr, lsr. split; [|split; [exact Frr|split; [|split; [exact Pr|split; [exact Phr|split; [|split; [exact Spr|]]]]]]].
        -- apply (raked_same s s' lr Rr (KR lr Rr)); auto.
        -- apply line_keep; [|exact Lnr]. rewrite Hx. destruct Hry; congruence.
        -- intros c Hc Ne. apply (older_same s s' lr); auto. now apply first_in.
        -- apply (hung_same s s' lsr); [|exact Hur]. intros q c Hq. apply Cr. exact (Permutation_in q (Permutation_sym Pr) Hq).
Qed.

Theorem exact_paths h : tk <> KLine -> fresh tk h ->
  (forall t, added h t -> exists x ls, is_head h x /\ line h x ls /\ In t ls) /\
  (forall x ls, is_head h x -> line h x ls -> NoDup ls /\ exists d,
    (d + 1) * (d + 1) <= 4 * length ls + 1 /\ 4 * length ls + 1 < (d + 2) * (d + 2) /\
    (forall t, In t ls -> exists p, tr_path_to TR (tree (run v_empty h)) t = Ok (Some (x :: p)) /\ length (x :: p) <= d) /\
    (exists t p, In t ls /\ tr_path_to TR (tree (run v_empty h)) t = Ok (Some (x :: p)) /\ length (x :: p) = d) /\
    (exists p, tr_get_split TR (tree (run v_empty h)) x = Ok (last p x, p) /\ length p = Nat.div2 d + 1)).
Proof.
  intros Hk F. destruct (hist_shaped h Hk F) as [s [I Cb]].
  pose proof (c_rep _ _ _ _ _ _ _ _ _ _ _ _ (h_core _ _ _ _ _ _ _ _ _ _ _ I)) as R.
  pose proof (rep_ok _ TL _ _ R) as T. pose proof (tree_ok_exact s T) as [Fo X]. split.
  - intros t Ha. destruct (inv_up re_w tk HS DS TR HL DL TL h _ s t I Ha) as [u Hu].
    destruct (up_down _ _ _ Hu) as [r [n [Hr [Hp [Hd [El _]]]]]]. destruct (Cb r n Hr Hp) as [l [ls [Rl [Fr [Ln [P _]]]]]].
    exists r, ls. split; [now apply (h_head _ _ _ _ _ _ _ _ _ _ _ I r n)|split; [exact Ln|]].
    apply (Permutation_in t P). apply (below_rake s l Rl r); [now apply first_in|]. exists (rev u); auto.
  - intros x ls Hx Ln. destruct (dget s x) as [n|] eqn:Hn.
    2: { apply (known_added re_w tk HS DS TR HL DL TL _ _ _ _ I) in Hn. apply is_head_added in Hx. contradiction. }
    assert (Hp : parent n = None) by (now apply (h_head _ _ _ _ _ _ _ _ _ _ _ I x n)).
    destruct (Cb x n Hn Hp) as [l [ls' [Rl [Fx [Ln' [P [Ph _]]]]]]].
    assert (ls' = ls) by (apply (line_unique h x); [apply F|exact Ln'|exact Ln]). subst ls'.
    split; [apply (Permutation_NoDup P), Rl|]. exists (height n).
    pose proof (rake_height s l x n T Rl Fx Hn) as Hh. destruct (X x n Hn) as [_ [[[q [Hq Lq]] Hmax] _]].
    destruct (phase_tall _ _ Ph) as [B1 B2]. rewrite <- Hh in B1, B2. split; [exact B1|split; [exact B2|split; [|split]]].
    + intros t Ht. apply (Permutation_in t (Permutation_sym P)) in Ht.
      assert (Kt : dget s t <> None) by now apply (r_known s l Rl).
      destruct (Fo t Kt) as [u Hu]. destruct (up_down _ _ _ Hu) as [r [m [Hr [Hpr [Hd [El [p Hrev]]]]]]].
      assert (r = x).
      { pose proof (rake_below s l Rl l [] x eq_refl Fx t Ht) as Hb. rewrite <- (root_of_below s x n t u Hn Hp Hb Hu).
        symmetry. apply (root_of_below s r m t u Hr Hpr); [exists (rev u); auto|exact Hu]. }
      subst r. exists p. rewrite (rep_path _ TL _ s t u R Hu), Hrev. split; [reflexivity|].
      rewrite <- Hrev. now apply Hmax.
    + assert (Kd : dget s (last q x) <> None) by exact (down_last_in _ _ _ Hq).
      destruct (Fo _ Kd) as [u Hu]. destruct (up_down _ _ _ Hu) as [r [m [Hr [Hpr [Hd [El [p Hrev]]]]]]].
      assert (r = x).
      { assert (Hb : below s x (last q x)) by (exists q; auto). rewrite <- (root_of_below s x n _ u Hn Hp Hb Hu).
        symmetry. apply (root_of_below s r m _ u Hr Hpr); [exists (rev u); auto|exact Hu]. }
      subst r. exists (last q x), p. split; [|split].
      * apply (Permutation_in _ P), (below_rake s l Rl x); [now apply first_in|exists q; auto].
      * rewrite (rep_path _ TL _ s _ u R Hu), Hrev; reflexivity.
      * destruct (down_up _ _ _ Hq _ _ eq_refl Hu) as [l1 [lt [Q [Ut Len]]]].
        rewrite (up_fun _ _ _ Ut _ (root_up _ _ _ Hn Hp)) in Q.
        rewrite <- Hrev, rev_length, Q, app_length. cbn [length]. lia.
    + destruct (rep_way _ TL _ s x n R Hn) as [p [Hs Hw]]. exists p. split; [exact Hs|].
      rewrite Hh. exact (phase_way s l (length ls) x p T (inv_numbered h _ s F I) Rl Fx Ph Hw).
Qed.
End H.

Section Both.
Context {K : Type} {E : Teq K} {O : TeqOk K}.
Variable re_w : Z -> bool.
Variable tk : tkind.
Notation D := (dict_store K).
Notation C := (db_store K).
Notation M := (memory_tree K).
Notation T := (db_tree K).

Theorem exact_memory h : tk <> KLine -> fresh tk h ->
  let s := tree (run re_w tk D D M v_empty h) in
  (forall t, added h t -> exists x ls, is_head h x /\ line h x ls /\ In t ls) /\
  (forall x ls, is_head h x -> line h x ls -> NoDup ls /\ exists d,
    (d + 1) * (d + 1) <= 4 * length ls + 1 /\ 4 * length ls + 1 < (d + 2) * (d + 2) /\
    (forall t, In t ls -> exists p, m_path_to s t = Ok (Some (x :: p)) /\ length (x :: p) <= d) /\
    (exists t p, In t ls /\ m_path_to s t = Ok (Some (x :: p)) /\ length (x :: p) = d) /\
    (exists p, m_get_split s x = Ok (last p x, p) /\ length p = Nat.div2 d + 1)).
Proof. exact (exact_paths re_w tk D D M dict_law dict_law memory_law h). Qed.
Theorem exact_db place1 place2 h : tk <> KLine -> fresh tk h ->
  let s := tree (run re_w tk (C place1) (C place2) T v_empty h) in
  (forall t, added h t -> exists x ls, is_head h x /\ line h x ls /\ In t ls) /\
  (forall x ls, is_head h x -> line h x ls -> NoDup ls /\ exists d,
    (d + 1) * (d + 1) <= 4 * length ls + 1 /\ 4 * length ls + 1 < (d + 2) * (d + 2) /\
    (forall t, In t ls -> exists p, d_path_to s t = Ok (Some (x :: p)) /\ length (x :: p) <= d) /\
    (exists t p, In t ls /\ d_path_to s t = Ok (Some (x :: p)) /\ length (x :: p) = d) /\
    (exists p, d_get_split s x = Ok (last p x, p) /\ length p = Nat.div2 d + 1)).
Proof. exact (exact_paths re_w tk (C place1) (C place2) T (db_store_law place1) (db_store_law place2) db_law h). Qed.
End Both.
