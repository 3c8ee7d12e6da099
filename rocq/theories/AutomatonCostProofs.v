(** The construction follows a linear number of links. *)
From Verif Require Import Base Strings StringsExt Automaton AutomatonInv AutomatonProofs AutomatonCost.

Lemma pigeon {A B : Type} (R : A -> B -> Prop) : forall l1 l2,
  NoDup l1 ->
  (forall x, In x l1 -> exists y, In y l2 /\ R x y) ->
  (forall x x' y, In x l1 -> In x' l1 -> R x y -> R x' y -> x = x') ->
  length l1 <= length l2.
Proof.
  induction l1 as [|x l1 IH]; intros l2 Hnd Hex Hinj; [cbn; lia|].
  inversion Hnd as [|? ? Hx Hnd']; subst.
  destruct (Hex x) as [y [Hy HR]]; [now left|].
  destruct (in_split _ _ Hy) as [a [b ->]].
  rewrite app_length; cbn.
  enough (length l1 <= length (a ++ b)) by (rewrite app_length in *; lia).
  apply IH; auto.
  - intros x' Hx'; destruct (Hex x') as [y' [Hy' HR']]; [now right|].
    exists y'; split; [|exact HR'].
    apply in_app_or in Hy'; apply in_or_app; destruct Hy' as [?|[<-|?]]; auto.
    exfalso; apply Hx; rewrite (Hinj x x' y); auto; [now left|now right].
  - intros x1 x2 y' H1 H2; apply Hinj; now right.
Qed.

Section CostProofs.
Context {T : Type} {E : Teq T} {O : TeqOk T}.
Implicit Types (s w u v x : list T) (h : heap T) (W : nat -> list T).

(** ** Erasing the counts *)
Lemma extend_loop_erase fuel : forall h t new prev cur,
  option_map fst (extend_loop_n fuel h t new prev cur) = extend_loop fuel h t new prev cur.
Proof.
  induction fuel as [|fuel IH]; intros h t new prev cur; [reflexivity|].
  cbn [extend_loop_n extend_loop]; destruct cur as [c|]; [|reflexivity].
  destruct (nth_error h c) as [nd|]; [|reflexivity].
  destruct (dmem (n_trans nd) t); [reflexivity|]; rewrite <- IH.
  now destruct (extend_loop_n fuel _ t new (Some c) (n_link nd)) as [[[[? ?] ?] ?]|].
Qed.
Lemma redirect_loop_erase fuel : forall h t q clone cur,
  option_map fst (redirect_loop_n fuel h t q clone cur) = redirect_loop fuel h t q clone cur.
Proof.
  induction fuel as [|fuel IH]; intros h t q clone cur; [reflexivity|].
  cbn [redirect_loop_n redirect_loop]; destruct cur as [c|]; [|reflexivity].
  destruct (nth_error h c) as [nd|]; [|reflexivity].
  destruct (dget (n_trans nd) t) as [d|]; [|reflexivity].
  destruct (d =? q); [|reflexivity]; rewrite <- IH.
  now destruct (redirect_loop_n fuel _ t q clone (n_link nd)) as [[? ?]|].
Qed.
Lemma insert_node_erase h t p q :
  option_map fst (insert_node_n h t p q) = insert_node h t p q.
Proof.
  unfold insert_node_n, insert_node.
  destruct (nth_error h p), (nth_error h q); try reflexivity.
  cbv zeta; rewrite <- redirect_loop_erase.
  now destruct (redirect_loop_n _ _ t q _ _) as [[? ?]|].
Qed.
Lemma extend_erase h last t : option_map fst (extend_n h last t) = extend h last t.
Proof.
  unfold extend_n, extend; destruct (nth_error h last) as [nl|]; [|reflexivity].
  cbv zeta; rewrite <- extend_loop_erase.
  destruct (extend_loop_n _ _ t _ _ _) as [[[[h2 prev] [p|]] k]|]; try reflexivity; cbn [option_map fst].
  destruct (nth_error h2 p) as [np|]; [|reflexivity].
  destruct (dget (n_trans np) t) as [q|]; [|reflexivity].
  destruct (nth_error h2 q) as [nq|]; [|reflexivity].
  destruct (n_len nq =? n_len np + 1); [reflexivity|].
  rewrite <- insert_node_erase; now destruct (insert_node_n h2 t p q) as [[[? ?] ?]|].
Qed.
Lemma extend_all_erase s : forall h last,
  option_map fst (extend_all_n h last s) = extend_all h last s.
Proof.
  induction s as [|t s IH]; intros h last; [reflexivity|]; cbn [extend_all_n extend_all].
  rewrite <- extend_erase; destruct (extend_n h last t) as [[[h' l'] k]|]; [|reflexivity]; cbn.
  rewrite <- IH; now destruct (extend_all_n h' l' s) as [[[? ?] ?]|].
Qed.
Lemma mark_terminals_erase fuel : forall h cur,
  option_map fst (mark_terminals_n fuel h cur) = mark_terminals fuel h cur.
Proof.
  induction fuel as [|fuel IH]; intros h cur; [reflexivity|].
  cbn [mark_terminals_n mark_terminals]; destruct cur as [c|]; [|reflexivity].
  destruct (nth_error h c) as [nd|]; [|reflexivity]; rewrite <- IH.
  now destruct (mark_terminals_n fuel _ (n_link nd)) as [[? ?]|].
Qed.
Lemma build_erase s : option_map fst (build_n s) = build s.
Proof.
  unfold build_n, build, build_core; rewrite <- extend_all_erase.
  destruct (extend_all_n [root_node] 0 s) as [[[h l] k]|]; [|reflexivity]; cbn [option_map fst].
  rewrite <- mark_terminals_erase.
  destruct (mark_terminals_n _ h (Some l)) as [[h' k']|]; [|reflexivity]; cbn [option_map fst].
  now destruct (add_reverse_links h' (seq 0 (length h'))).
Qed.

(** ** The suffix path of the last node, as a list of words *)
Definition onpath s W (i : nat) : bool := if suf_dec (W i) s then true else false.
Definition path s W h : list (list T) := map W (filter (onpath s W) (seq 0 (length h))).

Lemma path_In W s h last w : Inv W s h last -> (In w (path s W h) <-> Canon s w /\ suf w s).
Proof.
  intros HI; unfold path; rewrite in_map_iff; split.
  - intros [i [<- Hi]]; apply filter_In in Hi; destruct Hi as [Hi Hs]; apply in_seq in Hi.
    unfold onpath in Hs; destruct (suf_dec (W i) s) as [Hs'|]; [|discriminate].
    split; [|exact Hs']; eapply W_Canon; eauto; lia.
  - intros [Hc Hs]; destruct (inv_surj _ _ _ _ HI w Hc) as [i [Hi <-]].
    exists i; split; [reflexivity|]; apply filter_In; split; [apply in_seq; lia|].
    unfold onpath; destruct (suf_dec (W i) s); [reflexivity|contradiction].
Qed.
Lemma NoDup_map_inj {A B} (f : A -> B) l :
  (forall a b, In a l -> In b l -> f a = f b -> a = b) -> NoDup l -> NoDup (map f l).
Proof.
  induction l as [|a l IH]; intros Hf Hn; [constructor|].
  inversion Hn as [|? ? Ha Hn']; subst; cbn; constructor.
  - rewrite in_map_iff; intros [b [Hb Hin]]; apply Ha.
    rewrite <- (Hf b a); [exact Hin|now right|now left|exact Hb].
  - apply IH; auto; intros; apply Hf; auto; now right.
Qed.
Lemma path_NoDup W s h last : Inv W s h last -> NoDup (path s W h).
Proof.
  intros HI; apply NoDup_map_inj.
  - intros i j Hi Hj; apply filter_In in Hi, Hj; destruct Hi as [Hi _], Hj as [Hj _].
    apply in_seq in Hi, Hj; apply (inv_inj _ _ _ _ HI); lia.
  - apply NoDup_filter, seq_NoDup.
Qed.

Section Step.
Variables (W : nat -> list T) (s : list T) (h : heap T) (last : nat) (c : T).
Hypothesis HI : Inv W s h last.
Notation s' := (s ++ [c]).
Notation z := (length h).

(** ** The first loop *)
Definition agree (hk : heap T) : Prop := forall i nd, i < z -> nth_error hk i = Some nd ->
  exists n0, nth_error h i = Some n0 /\ n_link nd = n_link n0 /\
             (dget (n_trans nd) c = None -> dget (n_trans n0) c = None).

Lemma extend_loop_count fuel : forall hk prev cur r k, agree hk ->
  match cur with Some p => p < z /\ suf (W p) s | None => True end ->
  extend_loop_n fuel hk c z prev cur = Some (r, k) ->
  exists ws, length ws = k /\ NoDup ws /\
    forall w, In w ws -> Canon s w /\ suf w s /\ ~ Sub s (w ++ [c]) /\
      match cur with Some p => length w <= length (W p) | None => False end.
Proof.
  induction fuel as [|fuel IH]; intros hk prev cur r k HA Hc Hrun; [discriminate|].
  cbn [extend_loop_n] in Hrun; destruct cur as [p|].
  2:{ injection Hrun as _ <-; exists []; split; [reflexivity|]; split; [constructor|intros ? []]. }
  destruct Hc as [Hp Hps].
  destruct (nth_error hk p) as [nd|] eqn:Hnd; [|discriminate].
  unfold dmem in Hrun; destruct (dget (n_trans nd) c) as [q|] eqn:Hq.
  { injection Hrun as _ <-; exists []; split; [reflexivity|]; split; [constructor|intros ? []]. }
  destruct (HA p nd Hp Hnd) as [n0 [Hn0 [Hl Ht]]]; specialize (Ht Hq).
  destruct (extend_loop_n fuel _ c z (Some p) (n_link nd)) as [[r' k']|] eqn:Hr; [|discriminate].
  destruct (inv_node _ _ _ _ HI _ _ Hn0) as [K1 K2 K3 K4 K5 K6].
  specialize (K6 c); rewrite Ht in K6; cbn in K6; rewrite Hl in Hr.
  assert (k = S k') by (destruct r' as [[? ?] ?]; injection Hrun as _ <-; reflexivity); subst k.
  assert (HA' : agree (lupd hk p (set_trans c z))).
  { intros i ni Hi Hni.
    rewrite nth_error_lupd in Hni; destruct (Nat.eqb_spec p i) as [<-|Hpi]; [|now apply HA].
    rewrite Hnd in Hni; cbn in Hni; injection Hni as <-.
    exists n0; cbn; repeat split; auto. }
  assert (Hc' : match n_link n0 with Some j => j < z /\ suf (W j) s | None => True end).
  { destruct (n_link n0) as [j|]; cbn in K5 |- *; [|exact I].
    destruct K5 as [Hj [Hjs _]]; split; [exact Hj|eapply suf_trans; eauto]. }
  destruct (IH _ _ _ _ _ HA' Hc' Hr) as [ws [Hw1 [Hw2 Hw3]]].
  - exists (W p :: ws); split; [cbn; now rewrite Hw1|]; split.
    + constructor; [|exact Hw2]; intros Hin; destruct (Hw3 _ Hin) as [_ [_ [_ Hlt]]].
      destruct (n_link n0) as [j|]; [|contradiction]; cbn in K5; destruct K5 as [_ [_ [K5 _]]]; lia.
    + intros w [<-|Hin]; [split; [exact K2|auto]|].
      destruct (Hw3 _ Hin) as [? [? [? Hlt]]]; do 3 (split; [assumption|]).
      destruct (n_link n0) as [j|]; [|contradiction]; cbn in K5; destruct K5 as [_ [_ [K5 _]]]; lia.
Qed.

(** ** The redirecting loop *)
Definition agree2 (q : nat) (hr : heap T) : Prop :=
  forall i nd, i < z -> i <> q -> nth_error hr i = Some nd ->
  exists n0, nth_error h i = Some n0 /\ n_link nd = n_link n0 /\
             (dget (n_trans nd) c = Some q -> dget (n_trans n0) c = Some q).

Lemma redirect_loop_count q clone fuel : q < z -> z <= clone -> forall hr cur r k, agree2 q hr ->
  match cur with Some p => p < z /\ suf (W p) s /\ length (W p) < length (W q) | None => True end ->
  redirect_loop_n fuel hr c q clone cur = Some (r, k) ->
  exists ws, length ws = k /\ NoDup ws /\
    forall w, In w ws -> Canon s w /\ suf w s /\ eqv s (w ++ [c]) (W q) /\
      match cur with Some p => length w <= length (W p) | None => False end.
Proof.
  intros Hq Hcl; induction fuel as [|fuel IH]; intros hr cur r k HA Hc Hrun; [discriminate|].
  assert (Hstop : forall r0, Some (r0, 0) = Some (r, k) -> exists ws : list (list T), length ws = k /\ NoDup ws /\
    forall w, In w ws -> Canon s w /\ suf w s /\ eqv s (w ++ [c]) (W q) /\
      match cur with Some p => length w <= length (W p) | None => False end).
  { intros r0 H; injection H as _ <-; exists []; split; [reflexivity|]; split; [constructor|intros ? []]. }
  cbn [redirect_loop_n] in Hrun; destruct cur as [p|]; [|eauto].
  destruct Hc as [Hp [Hps Hpq]].
  assert (Hne : p <> q) by (intros ->; lia).
  destruct (nth_error hr p) as [nd|] eqn:Hnd; [|discriminate].
  destruct (dget (n_trans nd) c) as [d|] eqn:Hd; [|eauto].
  destruct (Nat.eqb_spec d q) as [->|Hdq]; [|eauto].
  destruct (HA p nd Hp Hne Hnd) as [n0 [Hn0 [Hl Ht]]]; specialize (Ht Hd).
  destruct (redirect_loop_n fuel _ c q clone (n_link nd)) as [[r' k']|] eqn:Hr; [|discriminate].
  destruct (inv_node _ _ _ _ HI _ _ Hn0) as [K1 K2 K3 K4 K5 K6].
  specialize (K6 c); rewrite Ht in K6; cbn in K6; rewrite Hl in Hr; destruct K6 as [_ [_ K6]].
  injection Hrun as _ <-.
  assert (HA' : agree2 q (lupd hr p (set_trans c clone))).
  { intros i ni Hi Hiq Hni.
    rewrite nth_error_lupd in Hni; destruct (Nat.eqb_spec p i) as [<-|Hpi]; [|now apply HA].
    rewrite Hnd in Hni; cbn in Hni; injection Hni as <-.
    exists n0; cbn; repeat split; auto. }
  assert (Hc' : match n_link n0 with
                | Some j => j < z /\ suf (W j) s /\ length (W j) < length (W q) | None => True end).
  { destruct (n_link n0) as [j|]; cbn in K5 |- *; [|exact I].
    destruct K5 as [Hj [Hjs [Hjl _]]]; split; [exact Hj|]; split; [eapply suf_trans; eauto|lia]. }
  destruct (IH _ _ _ _ HA' Hc' Hr) as [ws [Hw1 [Hw2 Hw3]]].
  - exists (W p :: ws); split; [cbn; now rewrite Hw1|]; split.
    + constructor; [|exact Hw2]; intros Hin; destruct (Hw3 _ Hin) as [_ [_ [_ Hlt]]].
      destruct (n_link n0) as [j|]; [|contradiction]; cbn in K5; destruct K5 as [_ [_ [K5 _]]]; lia.
    + intros w [<-|Hin]; [split; [exact K2|auto]|].
      destruct (Hw3 _ Hin) as [? [? [? Hlt]]]; do 3 (split; [assumption|]).
      destruct (n_link n0) as [j|]; [|contradiction]; cbn in K5; destruct K5 as [_ [_ [K5 _]]]; lia.
Qed.

(** ** What the two loops visit leaves the path *)
Lemma suf_of_eqv w w' : suf w s -> eqv s w' w -> suf w' s.
Proof.
  intros Hs He; assert (Ho : Occ s w' (length s)).
  { apply He; eapply Occ_suf; [exact Hs|apply Occ_full]. }
  destruct Ho as [_ Ho]; now rewrite firstn_all in Ho.
Qed.

Lemma count_step W1 h1 last1 x ws1 ws2 :
  Inv W1 s' h1 last1 -> LongestOld s c x ->
  NoDup ws1 -> (forall w, In w ws1 -> Canon s w /\ suf w s /\ ~ Sub s (w ++ [c])) ->
  NoDup ws2 -> (forall w, In w ws2 -> Canon s w /\ suf w s /\ eqv s (w ++ [c]) x) ->
  length ws1 + length ws2 + length (path s' W1 h1) <= length (path s W h) + 3.
Proof.
  intros HI1 HX N1 P1 N2 P2.
  pose proof HX as [HX1 [HX2 HX3]].
  set (bad := [s'; x; []]).
  set (rest := filter (fun v => if in_dec Tlist_dec v bad then false else true) (path s' W1 h1)).
  assert (Hrest : length (path s' W1 h1) <= length rest + 3).
  { change 3 with (length bad); rewrite <- app_length.
    apply NoDup_incl_length; [eapply path_NoDup; eauto|].
    intros v Hv; apply in_or_app; destruct (in_dec Tlist_dec v bad) as [|Hb]; [now right|left].
    apply filter_In; split; [exact Hv|]; destruct (in_dec Tlist_dec v bad); [contradiction|reflexivity]. }
  assert (HR : forall v, In v rest -> Canon s' v /\ suf v s' /\ Sub s v /\ v <> x /\
                 exists w, v = w ++ [c] /\ suf w s).
  { intros v Hv; apply filter_In in Hv; destruct Hv as [Hv Hb].
    apply (path_In _ _ _ _ _ HI1) in Hv; destruct Hv as [Hc Hs].
    destruct (in_dec Tlist_dec v bad) as [|Hb']; [discriminate|]; unfold bad in Hb'; cbn in Hb'.
    split; [exact Hc|]; split; [exact Hs|]; split; [|split].
    - destruct (Sub_dec s v) as [|Hn]; [assumption|exfalso; apply Hb'; left].
      symmetry; apply (Canon_uniq s'); auto using Canon_full; now apply new_word_eqv.
    - intros ->; apply Hb'; auto.
    - destruct (suf_snoc_inv _ _ _ Hs) as [->|[w [-> Hw]]]; [exfalso; apply Hb'; auto|eauto]. }
  assert (Heq : forall u v, suf u s' -> suf v s' -> Canon s' u -> Canon s' v -> eqv s u v -> u = v).
  { intros u v Hu Hv Cu Cv He; apply (Canon_uniq s'); auto; apply eqv_app; [exact He|tauto]. }
  set (R := fun (e : list T + list T) (y : list T) =>
    match e with inl w => y = w | inr v => exists w, v = w ++ [c] /\ eqv s w y end).
  enough (HL : length (map inl (ws1 ++ ws2) ++ map (@inr (list T) (list T)) rest) <= length (path s W h)).
  { rewrite app_length, !map_length, app_length in HL; lia. }
  apply (pigeon R).
  - assert (NA : NoDup (ws1 ++ ws2)).
    { clear - N1 P1 N2 P2 HX2; induction ws1 as [|w l IH]; [exact N2|].
      inversion N1; subst; cbn; constructor.
      - intros Hin; apply in_app_or in Hin; destruct Hin as [Hin|Hin]; [contradiction|].
        destruct (P1 w (or_introl eq_refl)) as [_ [_ Hn]]; apply Hn.
        destruct (P2 w Hin) as [_ [_ He]]; eapply eqv_Sub; [apply eqv_sym, He|exact HX2].
      - apply IH; auto; intros; apply P1; now right. }
    assert (NR : NoDup rest) by (apply NoDup_filter; eapply path_NoDup; eauto).
    assert (N : NoDup (map inl (ws1 ++ ws2) ++ map (@inr (list T) (list T)) rest)); [|exact N].
    revert NA NR; generalize (ws1 ++ ws2) rest; clear; intros a b NA NB.
    induction a as [|w a IH]; cbn.
    + apply NoDup_map_inj; [intros; congruence|exact NB].
    + inversion NA; subst; constructor; [|auto].
      rewrite in_app_iff, !in_map_iff; intros [[w' [He Hw']]|[w' [He _]]]; congruence.
  - intros e He; apply in_app_or in He; rewrite !in_map_iff in He.
    destruct He as [[w [<- Hw]]|[v [<- Hv]]].
    + exists w; split; [|reflexivity]; apply (path_In _ _ _ _ _ HI).
      apply in_app_or in Hw; destruct Hw as [Hw|Hw]; [apply P1 in Hw|apply P2 in Hw]; tauto.
    + destruct (HR v Hv) as [_ [_ [Hsv [_ [w [-> Hw]]]]]].
      destruct (Canon_exists s w) as [w' [Hw1 [Hw2 Hw3]]]; [now apply Sub_of_suf|].
      exists w'; split.
      * apply (path_In _ _ _ _ _ HI); split; [exact Hw3|eapply suf_of_eqv; eauto].
      * exists w; split; [reflexivity|now apply eqv_sym].
  - assert (Hcross : forall w v, In w (ws1 ++ ws2) -> In v rest -> R (inr v) w -> False).
    { intros w v Hw Hv [w0 [-> He]].
      destruct (HR _ Hv) as [Cv [Sv [Hsv [Hvx _]]]].
      apply in_app_or in Hw; destruct Hw as [Hw|Hw].
      - destruct (P1 w Hw) as [_ [_ Hn]]; apply Hn; eapply eqv_Sub; [|exact Hsv]; now apply eqv_snoc.
      - destruct (P2 w Hw) as [_ [_ Hx]]; apply Hvx; apply Heq; auto.
        + now apply LongestOld_Canon.
        + eapply eqv_trans; [apply eqv_snoc, He|exact Hx]. }
    intros e e' y He He' HRe HRe'; apply in_app_or in He, He'; rewrite !in_map_iff in He, He'.
    destruct He as [[w [<- Hw]]|[v [<- Hv]]], He' as [[w' [<- Hw']]|[v' [<- Hv']]].
    + cbn in HRe, HRe'; congruence.
    + exfalso; cbn in HRe; subst y; eapply Hcross; eauto.
    + exfalso; cbn in HRe'; subst y; eapply Hcross; eauto.
    + destruct HRe as [w [-> Hw]], HRe' as [w' [-> Hw']]; f_equal.
      destruct (HR _ Hv) as [Cv [Sv _]], (HR _ Hv') as [Cv' [Sv' _]]; apply Heq; auto.
      apply eqv_snoc; eapply eqv_trans; [exact Hw|now apply eqv_sym].
Qed.

Lemma extend_cost : exists W1 h1 last1 k,
  extend_n h last c = Some (h1, last1, k) /\ Inv W1 s' h1 last1 /\ 1 <= k /\
  k + length (path s' W1 h1) <= length (path s W h) + 3.
Proof.
  destruct (extend_ok W s h last c HI) as [W1 [h1 [l1 [Hext [HI1 _]]]]].
  pose proof (extend_erase h last c) as Her; rewrite Hext in Her.
  destruct (extend_n h last c) as [[[h1' l1'] k]|] eqn:Hn; [|discriminate]; cbn in Her.
  injection Her as -> ->.
  exists W1, h1, l1, k; split; [reflexivity|]; split; [exact HI1|].
  destruct (inv_last _ _ _ _ HI) as [Hlast HWlast].
  destruct (idx_node h last Hlast) as [nl Hnl].
  assert (Hnlen : n_len nl = length s).
  { rewrite (ok_len _ _ _ _ _ (inv_node _ _ _ _ HI _ _ Hnl)); now rewrite HWlast. }
  unfold extend_n in Hn; rewrite Hnl, Hnlen in Hn; cbv zeta in Hn.
  change (mkNode (length s + 1) [] (length s + 1) false None []) with (@new0 T s) in Hn.
  destruct (extend_loop_ok W s h last c HI (S (S (length s))) _ _ _ _ (LI_init W s h last c HI))
    as [h2 [prev2 [cur2 [b2 [Hrun [HL HS]]]]]].
  { rewrite HWlast; lia. }
  rewrite <- extend_loop_erase in Hrun.
  destruct (extend_loop_n _ _ c z None (Some last)) as [[r k1]|] eqn:Hr1; [|discriminate].
  cbn in Hrun; injection Hrun as ->.
  assert (Hk1 : 1 <= k1).
  { cbn [extend_loop_n] in Hr1. rewrite nth_error_app1, Hnl in Hr1 by exact Hlast.
    pose proof (ok_trans _ _ _ _ _ (inv_node _ _ _ _ HI _ _ Hnl) c) as Kt. unfold dmem in Hr1.
    destruct (dget (n_trans nl) c) as [q|] eqn:Hq.
    - exfalso. destruct Kt as [Hqz [Hqs Hqe]]. rewrite HWlast in Hqs, Hqe. destruct (idx_node h q Hqz) as [nq Hnq].
      destruct (ok_canon _ _ _ _ _ (inv_node _ _ _ _ HI _ _ Hnq)) as [Hsub _]. apply Sub_length in Hsub. apply suf_length in Hqs.
      rewrite app_length in Hqs. cbn in Hqs. lia.
    - match type of Hr1 with match ?x with _ => _ end = _ => destruct x as [[[[a1 a2] a3] a4]|] end; [|discriminate]; injection Hr1 as _ _ _ <-; lia. }
  assert (HA1 : agree (h ++ [new0 s])).
  { intros i nd Hi Hnd; rewrite nth_error_app1 in Hnd by lia; exists nd; auto. }
  assert (Hc1 : last < z /\ suf (W last) s) by (rewrite HWlast; split; [exact Hlast|apply suf_refl]).
  destruct (extend_loop_count _ _ _ (Some last) _ _ HA1 Hc1 Hr1) as [ws1 [L1 [N1 P1]]].
  assert (P1' : forall w, In w ws1 -> Canon s w /\ suf w s /\ ~ Sub s (w ++ [c])).
  { intros w Hw; destruct (P1 w Hw) as [? [? [? _]]]; auto. }
  destruct cur2 as [p|].
  - assert (HX : LongestOld s c (W p ++ [c])) by (eapply LongestOld_found; eauto).
    pose proof HL as [H1 [H2 [H3 [H4 [Hp [Hps Hb]]]]]].
    destruct (idx_node h p Hp) as [np Hnp].
    assert (Hmk : mk W s h c b2 p np = np).
    { unfold mk; destruct (vis W s b2 p) eqn:Hv; [apply vis_true in Hv; lia|reflexivity]. }
    rewrite (H3 p Hp), Hnp in Hn; cbn [option_map] in Hn; rewrite Hmk in Hn.
    pose proof (inv_node _ _ _ _ HI _ _ Hnp) as Kp.
    pose proof (ok_trans _ _ _ _ _ Kp c) as Kt.
    destruct (dget (n_trans np) c) as [q|] eqn:Hq; [|discriminate].
    destruct Kt as [Hqz [Hqs Hqe]].
    destruct (idx_node h q Hqz) as [nq Hnq].
    rewrite (H3 q Hqz), Hnq in Hn; cbn [option_map] in Hn; rewrite mk_len in Hn.
    destruct (Nat.eqb_spec (n_len nq) (n_len np + 1)) as [He|Hne].
    + injection Hn as _ _ <-.
      pose proof (count_step W1 h1 l1 _ ws1 [] HI1 HX N1 P1' (NoDup_nil _) (fun w (F : In w []) => False_ind _ F)) as K.
      cbn in K; split; lia.
    + unfold insert_node_n in Hn; rewrite (H3 p Hp), Hnp, (H3 q Hqz), Hnq in Hn; cbn [option_map] in Hn; rewrite Hmk in Hn.
      cbv zeta in Hn.
      destruct (redirect_loop_n _ _ c q (length h2) (Some p)) as [[h3 k2]|] eqn:Hr2; [|discriminate].
      injection Hn as _ _ <-.
      pose proof (x_lt_q W s h last c HI p q np nq Hnp Hq Hnq Hne) as Hxq.
      match type of Hr2 with redirect_loop_n _ ?hr _ _ _ _ = _ => assert (HA2 : agree2 q hr) end.
      { intros i nd Hi Hiq Hnd.
        rewrite nth_error_lupd in Hnd; destruct (Nat.eqb_spec q i) as [|_]; [congruence|].
        rewrite nth_error_app1, (H3 i Hi) in Hnd by lia.
        destruct (idx_node h i Hi) as [n0 Hn0]; rewrite Hn0 in Hnd; cbn in Hnd; injection Hnd as <-.
        exists n0; split; [exact Hn0|]; rewrite mk_link; split; [reflexivity|].
        rewrite mk_trans; destruct (_ && _); [intros C; injection C; lia|auto]. }
      assert (Hc2 : p < z /\ suf (W p) s /\ length (W p) < length (W q)).
      { split; [exact Hp|]; split; [exact Hps|]; rewrite app_length in Hxq; cbn in Hxq; lia. }
      assert (Hcl : z <= length h2) by lia.
      destruct (redirect_loop_count q (length h2) _ Hqz Hcl _ (Some p) _ _ HA2 Hc2 Hr2) as [ws2 [L2 [N2 P2]]].
      assert (P2' : forall w, In w ws2 -> Canon s w /\ suf w s /\ eqv s (w ++ [c]) (W p ++ [c])).
        { intros w Hw; destruct (P2 w Hw) as [? [? [Hw' _]]]; do 2 (split; [assumption|]).
          eapply eqv_trans; [exact Hw'|now apply eqv_sym]. }
        pose proof (count_step W1 h1 l1 _ ws1 ws2 HI1 HX N1 P1' N2 P2'); split; lia.
  - injection Hn as _ _ <-.
    assert (HX : LongestOld s c []) by (eapply LongestOld_none; eauto).
    pose proof (count_step W1 h1 l1 _ ws1 [] HI1 HX N1 P1' (NoDup_nil _) (fun w (F : In w []) => False_ind _ F)) as K.
    cbn in K; split; lia.
Qed.
End Step.

Lemma extend_all_cost t : forall W s h last, Inv W s h last ->
  exists W1 h1 last1 k, extend_all_n h last t = Some (h1, last1, k) /\ Inv W1 (s ++ t) h1 last1 /\ length t <= k /\
    k + length (path (s ++ t) W1 h1) <= length (path s W h) + 3 * length t.
Proof.
  induction t as [|c t IH]; intros W s h last HI; cbn [extend_all_n].
  - exists W, h, last, 0; rewrite app_nil_r; split; [reflexivity|]; split; [exact HI|cbn; split; lia].
  - destruct (extend_cost W s h last c HI) as [W1 [h1 [l1 [k1 [-> [HI1 [HL1 HS1]]]]]]].
    destruct (IH _ _ _ _ HI1) as [W2 [h2 [l2 [k2 [-> [HI2 [HL2 HS2]]]]]]].
    exists W2, h2, l2, (k1 + k2); rewrite <- app_assoc in HI2, HS2; cbn [app] in HI2, HS2.
    split; [reflexivity|]; split; [exact HI2|]; cbn [length]; split; lia.
Qed.

(** The marking loop walks the path once. *)
Lemma mark_count W s h last (HI : Inv W s h last) fuel : forall (hk : heap T) cur (r : heap T) k,
  (forall i nd, nth_error hk i = Some nd -> exists n0, nth_error h i = Some n0 /\ n_link nd = n_link n0) ->
  match cur with Some p => p < length h /\ suf (W p) s | None => True end ->
  mark_terminals_n fuel hk cur = Some (r, k) ->
  exists ws, length ws = k /\ NoDup ws /\
    forall w, In w ws -> Canon s w /\ suf w s /\
      match cur with Some p => length w <= length (W p) | None => False end.
Proof.
  induction fuel as [|fuel IH]; intros hk cur r k HA Hc Hrun; [discriminate|].
  cbn [mark_terminals_n] in Hrun; destruct cur as [p|].
  2:{ injection Hrun as _ <-; exists []; split; [reflexivity|]; split; [constructor|intros ? []]. }
  destruct Hc as [Hp Hps].
  destruct (nth_error hk p) as [nd|] eqn:Hnd; [|discriminate].
  destruct (HA p nd Hnd) as [n0 [Hn0 Hl]].
  destruct (mark_terminals_n fuel _ (n_link nd)) as [[r' k']|] eqn:Hr; [|discriminate].
  destruct (inv_node _ _ _ _ HI _ _ Hn0) as [K1 K2 K3 K4 K5 K6].
  rewrite Hl in Hr; injection Hrun as _ <-.
  assert (HA' : forall i nd, nth_error (lupd hk p set_term) i = Some nd ->
                exists n0, nth_error h i = Some n0 /\ n_link nd = n_link n0).
  { intros i ni Hni.
    rewrite nth_error_lupd in Hni; destruct (Nat.eqb_spec p i) as [<-|Hpi]; [|now apply HA].
    rewrite Hnd in Hni; cbn in Hni; injection Hni as <-; exists n0; auto. }
  assert (Hc' : match n_link n0 with Some j => j < length h /\ suf (W j) s | None => True end).
  { destruct (n_link n0) as [j|]; cbn in K5 |- *; [|exact I].
    destruct K5 as [Hj [Hjs _]]; split; [exact Hj|eapply suf_trans; eauto]. }
  destruct (IH _ _ _ _ HA' Hc' Hr) as [ws [Hw1 [Hw2 Hw3]]].
  - exists (W p :: ws); split; [cbn; now rewrite Hw1|]; split.
    + constructor; [|exact Hw2]; intros Hin; destruct (Hw3 _ Hin) as [_ [_ Hlt]].
      destruct (n_link n0) as [j|]; [|contradiction]; cbn in K5; destruct K5 as [_ [_ [K5 _]]]; lia.
    + intros w [<-|Hin]; [split; [exact K2|auto]|].
      destruct (Hw3 _ Hin) as [? [? Hlt]]; do 2 (split; [assumption|]).
      destruct (n_link n0) as [j|]; [|contradiction]; cbn in K5; destruct K5 as [_ [_ [K5 _]]]; lia.
Qed.

Theorem build_cost s : exists h k, build_n s = Some (h, k) /\ length s + 1 <= k <= 3 * length s + 1.
Proof.
  destruct (build_ok s) as [_ [hb [HB _]]].
  pose proof (build_erase s) as Her; rewrite HB in Her.
  destruct (build_n s) as [[h k]|] eqn:Hn; [|discriminate]; exists h, k; split; [reflexivity|].
  unfold build_n in Hn.
  destruct (extend_all_cost s _ _ _ _ Inv_init) as [W [h1 [l1 [k1 [Hx [HI [HL HS]]]]]]].
  rewrite Hx in Hn; cbn [app] in *.
  destruct (mark_terminals_n _ h1 (Some l1)) as [[h2 k2]|] eqn:Hm; [|discriminate].
  destruct (add_reverse_links h2 (seq 0 (length h2))) as [h3|]; [|discriminate].
  injection Hn as _ <-.
  destruct (inv_last _ _ _ _ HI) as [Hl HW].
  assert (HA : forall i nd, nth_error h1 i = Some nd ->
               exists n0, nth_error h1 i = Some n0 /\ n_link nd = n_link n0) by eauto.
  assert (HS' : suf (W l1) s) by (rewrite HW; apply suf_refl).
  destruct (mark_count W s h1 l1 HI _ h1 (Some l1) _ _ HA (conj Hl HS') Hm)
    as [ws [L1 [N1 P1]]].
  assert (Hle : length ws <= length (path s W h1)).
  { apply NoDup_incl_length; [exact N1|]; intros w Hw; apply (path_In _ _ _ _ _ HI).
    destruct (P1 w Hw) as [? [? _]]; auto. }
  assert (Hroot : length (path [] (fun _ => []) [@root_node T]) <= 1).
  { unfold path; rewrite map_length; cbn; destruct (onpath _ _ 0); cbn; lia. }
  assert (Hk2 : 1 <= k2).
  { cbn [mark_terminals_n] in Hm. destruct (nth_error h1 l1) as [nd|]; [|discriminate].
    match type of Hm with match ?x with _ => _ end = _ => destruct x as [[h4 k4]|] end; [|discriminate]. injection Hm as _ <-. lia. }
  lia.
Qed.

(** ** Transitions *)
Lemma app_inj_len {A} (a b x y : list A) : length a = length b -> a ++ x = b ++ y -> a = b /\ x = y.
Proof.
  revert b; induction a as [|c a IH]; intros [|d b] Hl He; try discriminate; [auto|].
  cbn in He; injection He as -> He; destruct (IH b) as [-> ->]; auto.
Qed.
Lemma Canon_init s w a : Canon s (w ++ [a]) -> Canon s w.
Proof.
  intros [HS HC]; split; [eapply Sub_snoc; eauto|].
  intros u Hu He.
  assert (K : u ++ [a] = w ++ [a]).
  { apply HC; [now apply suf_snoc|now apply eqv_snoc]. }
  apply app_inj_tail in K; tauto.
Qed.
Lemma Canon_pre s w x : Canon s (w ++ x) -> Canon s w.
Proof.
  revert w; induction x as [|a x IH] using rev_ind; intros w; [now rewrite app_nil_r|].
  rewrite app_assoc; intros H; apply IH; eapply Canon_init; eauto.
Qed.
Lemma Sub_completion s w : Sub s w -> exists x, suf (w ++ x) s.
Proof.
  intros [e [He [p Hp]]]; exists (skipn e s), p.
  now rewrite app_assoc, <- Hp, firstn_skipn.
Qed.

Definition edges h : list (nat * T) :=
  flat_map (fun i => match nth_error h i with
                     | Some nd => map (fun t => (i, t)) (dkeys (n_trans nd))
                     | None => [] end) (seq 0 (length h)).

Lemma flat_map_seq h : forall k,
  length (flat_map (fun i => match nth_error h (i - k) with
                     | Some nd => map (fun t => (i, t)) (dkeys (n_trans nd))
                     | None => [] end) (seq k (length h))) = trans_count h.
Proof.
  induction h as [|nd h IH]; intros k; [reflexivity|].
  cbn [length seq flat_map]; rewrite Nat.sub_diag; cbn [nth_error].
  rewrite app_length, map_length; unfold dkeys; rewrite map_length.
  unfold trans_count; cbn [map list_sum fold_right]; f_equal.
  fold (list_sum (map (fun nd => length (n_trans nd)) h)); fold (trans_count h); rewrite <- (IH (S k)).
  f_equal; rewrite !flat_map_concat_map; f_equal; apply map_ext_in.
  intros i Hi; apply in_seq in Hi; replace (i - k) with (S (i - S k)) by lia; reflexivity.
Qed.
Lemma edges_count h : length (edges h) = trans_count h.
Proof.
  rewrite <- (flat_map_seq h 0); unfold edges; f_equal.
  rewrite !flat_map_concat_map; f_equal; apply map_ext; intros i; now rewrite Nat.sub_0_r.
Qed.
Lemma edges_In h i a : In (i, a) (edges h) <->
  exists nd, nth_error h i = Some nd /\ In a (dkeys (n_trans nd)).
Proof.
  unfold edges; rewrite in_flat_map; split.
  - intros [j [Hj Hin]]; destruct (nth_error h j) as [nd|] eqn:Hn; [|destruct Hin].
    apply in_map_iff in Hin; destruct Hin as [t [Ht Hin]]; injection Ht as -> ->; eauto.
  - intros [nd [Hn Hin]]; exists i; split.
    + apply in_seq; split; [lia|]; cbn; apply nth_error_Some; congruence.
    + rewrite Hn; apply in_map_iff; eauto.
Qed.
Lemma edges_NoDup h : (forall i nd, nth_error h i = Some nd -> NoDup (dkeys (n_trans nd))) -> NoDup (edges h).
Proof.
  intros HK; unfold edges.
  generalize (seq_NoDup (length h) 0); generalize (seq 0 (length h)) as l.
  induction l as [|i l IH]; intros Hn; [constructor|]; inversion Hn as [|? ? Hi Hn']; subst.
  cbn [flat_map].
  assert (Hl : NoDup match nth_error h i with
                     | Some nd => map (fun t => (i, t)) (dkeys (n_trans nd)) | None => [] end).
  { destruct (nth_error h i) as [nd|] eqn:Hnd; [|constructor].
    apply NoDup_map_inj; [intros; congruence|eauto]. }
  assert (Hf : forall e, In e match nth_error h i with
                     | Some nd => map (fun t => (i, t)) (dkeys (n_trans nd)) | None => [] end -> fst e = i).
  { intros e He; destruct (nth_error h i); [|destruct He]; apply in_map_iff in He.
    destruct He as [t [<- _]]; reflexivity. }
  revert Hl Hf; generalize (match nth_error h i with
                     | Some nd => map (fun t => (i, t)) (dkeys (n_trans nd)) | None => [] end) as b.
  induction b as [|e b IHb]; intros Hl Hf; [auto|]; inversion Hl as [|? ? He Hb]; subst.
  cbn; constructor; [|apply IHb; auto; intros; apply Hf; now right].
  intros Hin; apply in_app_or in Hin; destruct Hin as [|Hin]; [contradiction|].
  apply in_flat_map in Hin; destruct Hin as [j [Hj Hin]].
  destruct (nth_error h j) as [nd|]; [|destruct Hin].
  apply in_map_iff in Hin; destruct Hin as [t [<- _]].
  specialize (Hf (j, t) (or_introl eq_refl)); cbn in Hf; congruence.
Qed.

Lemma partition_filter {A} (f : A -> bool) l :
  length l = length (filter f l) + length (filter (fun a => negb (f a)) l).
Proof. induction l as [|a l IH]; cbn; [reflexivity|]; destruct (f a); cbn; lia. Qed.

Lemma trans_bound W s h : AInv W s h -> trans_count h <= (length h - 1) + length s.
Proof.
  intros HA.
  set (solid := fun e : nat * T => match nth_error h (fst e) with
    | Some nd => match dget (n_trans nd) (snd e) with
                 | Some j => if Tlist_dec (W j) (W (fst e) ++ [snd e]) then true else false
                 | None => false end
    | None => false end).
  assert (HE : forall i a, In (i, a) (edges h) -> i < length h /\ exists nd j, nth_error h i = Some nd /\
     dget (n_trans nd) a = Some j /\ j < length h /\ suf (W i ++ [a]) (W j) /\ eqv s (W i ++ [a]) (W j)).
  { intros i a Hin; apply edges_In in Hin; destruct Hin as [nd [Hn Hin]].
    split; [apply nth_error_Some; congruence|].
    pose proof (ok_trans _ _ _ _ _ (ai_node _ _ _ HA _ _ Hn) a) as K.
    destruct (dget (n_trans nd) a) as [j|] eqn:Hd; [exists nd, j; auto|].
    apply dget_None in Hd; contradiction. }
  assert (HN : NoDup (edges h)).
  { apply edges_NoDup; intros i nd Hn; apply (ok_keys _ _ _ _ _ (ai_node _ _ _ HA _ _ Hn)). }
  rewrite <- edges_count, (partition_filter solid).
  assert (H1 : length (filter solid (edges h)) <= length (seq 1 (length h - 1))).
  { apply (pigeon (fun e j => W j = W (fst e) ++ [snd e])).
    - now apply NoDup_filter.
    - intros [i a] Hin; apply filter_In in Hin; destruct Hin as [Hin Hs].
      destruct (HE i a Hin) as [Hi [nd [j [Hn [Hd [Hj _]]]]]].
      unfold solid in Hs; cbn [fst snd] in Hs; rewrite Hn, Hd in Hs.
      destruct (Tlist_dec (W j) (W i ++ [a])) as [HW|]; [|discriminate].
      exists j; split; [|exact HW]; apply in_seq; destruct j; [|lia].
      rewrite (proj2 (ai_root _ _ _ HA)) in HW; destruct (W i); discriminate.
    - intros [i a] [i' a'] j Hin Hin' He He'; cbn in He, He'.
      rewrite He in He'; apply app_inj_tail in He'; destruct He' as [Hw <-]; f_equal.
      apply filter_In in Hin, Hin'; destruct Hin as [Hin _], Hin' as [Hin' _].
      apply (ai_inj _ _ _ HA); auto; [eapply HE; eauto|eapply HE; eauto]. }
  assert (H2 : length (filter (fun e => negb (solid e)) (edges h)) <= length (seq 0 (length s))).
  { apply (pigeon (fun e k => exists x, skipn k s = W (fst e) ++ snd e :: x)).
    - now apply NoDup_filter.
    - intros [i a] Hin; apply filter_In in Hin; destruct Hin as [Hin _].
      destruct (HE i a Hin) as [Hi [nd [j [Hn [Hd [Hj [_ He]]]]]]].
      destruct (idx_node h j Hj) as [nj Hnj].
      assert (HS : Sub s (W i ++ [a])).
      { eapply eqv_Sub; [apply eqv_sym, He|]; apply (ok_canon _ _ _ _ _ (ai_node _ _ _ HA _ _ Hnj)). }
      destruct (Sub_completion _ _ HS) as [x Hx].
      exists (length s - length ((W i ++ [a]) ++ x)); split.
      + apply in_seq; apply suf_length in Hx; rewrite !app_length in *; cbn in *; lia.
      + exists x; rewrite <- (suf_skipn _ _ Hx), <- app_assoc; reflexivity.
    - assert (Hns : forall i a, In (i, a) (filter (fun e => negb (solid e)) (edges h)) -> ~ Canon s (W i ++ [a])).
      { intros i a Hin Hc; apply filter_In in Hin; destruct Hin as [Hin Hs].
        destruct (HE i a Hin) as [Hi [nd [j [Hn [Hd [Hj [Hsf He]]]]]]].
        unfold solid in Hs; cbn [fst snd] in Hs; rewrite Hn, Hd in Hs.
        destruct (Tlist_dec (W j) (W i ++ [a])) as [|HW]; [discriminate|]; apply HW.
        destruct (idx_node h j Hj) as [nj Hnj].
        apply (Canon_uniq s); [apply (ok_canon _ _ _ _ _ (ai_node _ _ _ HA _ _ Hnj))|exact Hc|now apply eqv_sym]. }
      assert (Hlt : forall i a i' a' x x', In (i, a) (filter (fun e => negb (solid e)) (edges h)) ->
        In (i', a') (filter (fun e => negb (solid e)) (edges h)) ->
        W i ++ a :: x = W i' ++ a' :: x' -> length (W i) < length (W i') -> False).
      { intros i a i' a' x x' Hin Hin' He Hl; apply (Hns i a Hin).
        assert (HF : W i ++ [a] = firstn (S (length (W i))) (W i')).
        { apply (f_equal (firstn (S (length (W i))))) in He.
          rewrite !firstn_app in He.
          replace (S (length (W i)) - length (W i)) with 1 in He by lia.
          replace (S (length (W i)) - length (W i')) with 0 in He by lia.
          rewrite (firstn_all2 (W i)) in He by lia; cbn [firstn] in He; now rewrite app_nil_r in He. }
        rewrite HF; apply (Canon_pre s _ (skipn (S (length (W i))) (W i'))); rewrite firstn_skipn.
        apply filter_In in Hin'; destruct Hin' as [Hin' _]; apply edges_In in Hin'.
        destruct Hin' as [nd [Hn _]]; apply (ok_canon _ _ _ _ _ (ai_node _ _ _ HA _ _ Hn)). }
      intros [i a] [i' a'] k Hin Hin' [x Hx] [x' Hx']; cbn [fst snd] in *; rewrite Hx in Hx'.
      destruct (lt_eq_lt_dec (length (W i)) (length (W i'))) as [[Hl|Hl]|Hl].
      + exfalso; eapply (Hlt i a i' a'); eauto.
      + assert (HW : W i = W i' /\ a :: x = a' :: x') by (apply app_inj_len; auto).
        destruct HW as [HW Ha]; injection Ha as -> _; f_equal.
        apply filter_In in Hin, Hin'; destruct Hin as [Hin _], Hin' as [Hin' _].
        apply (ai_inj _ _ _ HA); auto; [eapply HE; eauto|eapply HE; eauto].
      + exfalso; symmetry in Hx'; eapply (Hlt i' a' i a); eauto. }
  rewrite seq_length in H1, H2; lia.
Qed.

Theorem build_linear s : exists h k,
  build_n s = Some (h, k) /\ build s = Some h /\
  length h <= 2 * length s + 1 /\ (2 <= length s -> length h <= 2 * length s - 1) /\
  trans_count h <= 3 * length s /\ length s + 1 <= k <= 3 * length s + 1.
Proof.
  destruct (build_cost s) as [h [k [Hn Hk]]]; exists h, k; split; [exact Hn|].
  destruct (build_ok s) as [W [h' [HB [HA [HS1 HS2]]]]].
  pose proof (build_erase s) as He; rewrite Hn, HB in He; cbn in He; injection He as ->.
  split; [exact HB|]; pose proof (trans_bound W s h' HA); repeat split; auto; lia.
Qed.
End CostProofs.
