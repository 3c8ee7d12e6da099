(** The suffix-automaton invariant and its preservation by [extend]. *)
From Verif Require Import Base Strings StringsExt Automaton.

Section Inv.
Context {T : Type} {E : Teq T} {O : TeqOk T}.
Implicit Types (s w u v x : list T) (h : heap T) (W : nat -> list T).

Definition link_ok s W n i (l : option nat) : Prop :=
  match l with
  | None => W i = []
  | Some j => j < n /\ suf (W j) (W i) /\ length (W j) < length (W i) /\
              forall w, Canon s w -> suf w (W i) -> length w < length (W i) ->
                        length w <= length (W j)
  end.
Definition trans_ok s W n i (a : T) (o : option nat) : Prop :=
  match o with
  | None => ~ Sub s (W i ++ [a])
  | Some j => j < n /\ suf (W i ++ [a]) (W j) /\ eqv s (W i ++ [a]) (W j)
  end.
Record node_ok s W n i (nd : node T) : Prop := {
  ok_len : n_len nd = length (W i);
  ok_canon : Canon s (W i);
  ok_fe : first_end s (W i) (n_fe nd);
  ok_keys : NoDup (dkeys (n_trans nd));
  ok_link : link_ok s W n i (n_link nd);
  ok_trans : forall a, trans_ok s W n i a (dget (n_trans nd) a)
}.
(** [W i] is the longest word of state [i]. *)
Record Inv W s h (last : nat) : Prop := {
  inv_node : forall i nd, nth_error h i = Some nd -> node_ok s W (length h) i nd;
  inv_inj : forall i j, i < length h -> j < length h -> W i = W j -> i = j;
  inv_surj : forall w, Canon s w -> exists i, i < length h /\ W i = w;
  inv_root : 0 < length h /\ W 0 = [];
  inv_last : last < length h /\ W last = s
}.

Lemma suf_dec u w : {suf u w} + {~ suf u w}.
Proof.
  destruct (Tlist_dec u (skipn (length w - length u) w)) as [H|H].
  - left; rewrite H; apply skipn_suf.
  - right; intros C; apply H; now apply suf_skipn.
Qed.

Lemma Canon_nil_only w : Canon ([] : list T) w -> w = [].
Proof.
  intros [H _]; apply Sub_length in H; destruct w; [reflexivity|cbn in H; lia].
Qed.

Lemma Inv_init : Inv (fun _ => []) [] [root_node] 0.
Proof.
  constructor; cbn.
  - intros [|i] nd Hn; cbn in Hn; [injection Hn as <-|destruct i; discriminate].
    constructor; cbn; auto.
    + apply Canon_nil.
    + split; [apply Occ_nil; cbn; lia|intros; lia].
    + constructor.
    + intros a [e He]; apply Occ_le in He as H1; apply Occ_bound in He; cbn in *; lia.
  - intros i j Hi Hj _; lia.
  - intros w Hw; exists 0; split; [lia|]; symmetry; now apply Canon_nil_only.
  - auto.
  - auto.
Qed.

Section Step.
Variables (W : nat -> list T) (s : list T) (h : heap T) (last : nat) (c : T).
Hypothesis HI : Inv W s h last.
Notation s' := (s ++ [c]).
Notation z := (length h).

Lemma idx_node i : i < length h -> exists nd, nth_error h i = Some nd.
Proof.
  intros Hi; destruct (nth_error h i) as [nd|] eqn:Hn; [eauto|].
  apply nth_error_None in Hn; lia.
Qed.
Lemma node_idx i nd : nth_error h i = Some nd -> i < length h.
Proof. intros H; apply nth_error_Some; congruence. Qed.

(** the nodes visited by the first loop with bound [b] *)
Definition vis (b i : nat) : bool :=
  if suf_dec (W i) s then b <=? length (W i) else false.
Lemma vis_true b i : vis b i = true <-> suf (W i) s /\ b <= length (W i).
Proof.
  unfold vis; destruct (suf_dec (W i) s) as [H|H].
  - rewrite Nat.leb_le; tauto.
  - split; [discriminate|tauto].
Qed.
Definition mk (b i : nat) (nd : node T) : node T :=
  if vis b i then set_trans c z nd else nd.
Definition new0 : node T := mkNode (length s + 1) [] (length s + 1) false None [].

Definition LI (hk : heap T) (prev cur : option nat) (b : nat) : Prop :=
  length hk = S z /\
  nth_error hk z = Some new0 /\
  (forall i, i < z -> nth_error hk i = option_map (mk b i) (nth_error h i)) /\
  (forall i, i < z -> suf (W i) s -> b <= length (W i) -> ~ Sub s (W i ++ [c])) /\
  match cur with
  | Some p => p < z /\ suf (W p) s /\ b = S (length (W p))
  | None => b = 0 /\ prev = Some 0
  end.

Lemma nth_app_new hh (nd : node T) :
  nth_error (hh ++ [nd]) (length hh) = Some nd.
Proof. rewrite nth_error_app2, Nat.sub_diag; [reflexivity|lia]. Qed.

Lemma LI_init : LI (h ++ [new0]) None (Some last) (S (length s)).
Proof.
  destruct (inv_last _ _ _ _ HI) as [Hl HW].
  split; [rewrite app_length; cbn; lia|]; split; [apply nth_app_new|]; split; [|split].
  - intros i Hi; rewrite nth_error_app1 by lia.
    destruct (nth_error h i) as [nd|]; [|reflexivity]; cbn; f_equal; unfold mk.
    destruct (vis (S (length s)) i) eqn:Hv; [|reflexivity].
    apply vis_true in Hv; destruct Hv as [Hv1 Hv2]; apply suf_length in Hv1; lia.
  - intros i Hi Hs Hb; apply suf_length in Hs; lia.
  - rewrite HW; split; [exact Hl|]; split; [apply suf_refl|reflexivity].
Qed.

Lemma extend_loop_ok fuel : forall hk prev cur b,
  LI hk prev cur b ->
  match cur with Some p => length (W p) + 2 <= fuel | None => 1 <= fuel end ->
  exists h2 prev2 cur2 b2,
    extend_loop fuel hk c z prev cur = Some (h2, prev2, cur2) /\
    LI h2 prev2 cur2 b2 /\
    match cur2 with Some p => Sub s (W p ++ [c]) | None => True end.
Proof.
  induction fuel as [|fuel IH]; intros hk prev cur b HL Hf.
  { destruct cur; lia. }
  destruct cur as [p|]; cbn [extend_loop].
  2:{ exists hk, prev, None, b; auto. }
  destruct HL as [H1 [H2 [H3 [H4 [Hp [Hps Hb]]]]]].
  destruct (idx_node p Hp) as [nd Hnd].
  rewrite (H3 p Hp), Hnd; cbn [option_map].
  assert (Hmk : mk b p nd = nd).
  { unfold mk; destruct (vis b p) eqn:Hv; [apply vis_true in Hv; lia|reflexivity]. }
  rewrite Hmk.
  pose proof (inv_node _ _ _ _ HI _ _ Hnd) as Hok.
  pose proof (ok_trans _ _ _ _ _ Hok c) as Ht.
  pose proof (ok_link _ _ _ _ _ Hok) as Hl.
  unfold dmem; destruct (dget (n_trans nd) c) as [q|] eqn:Hq; cbn in Ht.
  - exists hk, prev, (Some p), b; split; [reflexivity|]; split.
    + split; [exact H1|]; split; [exact H2|]; split; [exact H3|]; split; [exact H4|]; auto.
    + destruct Ht as [Hqz [_ Hqe]]; destruct (idx_node q Hqz) as [nq Hnq].
      eapply eqv_Sub; [apply eqv_sym, Hqe|].
      apply (ok_canon _ _ _ _ _ (inv_node _ _ _ _ HI _ _ Hnq)).
  - set (b' := match n_link nd with Some j => S (length (W j)) | None => 0 end).
    (* no canonical suffix of s lies strictly between the link target and p *)
    assert (Hgap : forall i, i < z -> suf (W i) s -> b' <= length (W i) -> length (W i) < b -> i = p).
    { intros i Hi Hs Hlo Hhi.
      destruct (idx_node i Hi) as [ni Hni].
      assert (Hc : Canon s (W i)) by apply (ok_canon _ _ _ _ _ (inv_node _ _ _ _ HI _ _ Hni)).
      destruct (Nat.eq_dec (length (W i)) (length (W p))) as [He|He].
      - apply (inv_inj _ _ _ _ HI); auto; apply (suf_same_len _ _ s); auto.
      - exfalso; assert (Hsp : suf (W i) (W p)) by (apply (suf_comparable _ _ s); auto; lia).
        subst b'; destruct (n_link nd) as [j|]; cbn in Hl.
        + destruct Hl as [_ [_ [_ Hl]]]; specialize (Hl _ Hc Hsp); lia.
        + rewrite Hl in He; apply suf_length in Hsp; rewrite Hl in Hsp; cbn in *; lia. }
    assert (Hb'b : b' <= length (W p)).
    { subst b'; destruct (n_link nd) as [j|]; cbn in Hl; [destruct Hl as [_ [_ [Hl _]]]; lia|lia]. }
    destruct (IH (lupd hk p (set_trans c z)) (Some p) (n_link nd) b') as [h2 [prev2 [cur2 [b2 [Hrun [HL2 Hs2]]]]]].
    + split; [rewrite lupd_length; exact H1|]; split; [|split; [|split]].
      * rewrite nth_error_lupd; destruct (p =? z) eqn:He; [apply Nat.eqb_eq in He; lia|exact H2].
      * intros i Hi; rewrite nth_error_lupd.
        destruct (Nat.eqb_spec p i) as [->|Hpi].
        -- rewrite (H3 i Hi), Hnd; cbn; f_equal; rewrite Hmk.
           unfold mk; destruct (vis b' i) eqn:Hv; [reflexivity|].
           assert (C : vis b' i = true) by (apply vis_true; auto); congruence.
        -- rewrite (H3 i Hi); destruct (nth_error h i) as [ni|]; [|reflexivity]; cbn; f_equal.
           unfold mk; destruct (vis b i) eqn:Hv, (vis b' i) eqn:Hv'; auto; exfalso.
           ++ apply vis_true in Hv; destruct Hv as [Hv1 Hv2].
              assert (C : vis b' i = true) by (apply vis_true; split; [exact Hv1|lia]); congruence.
           ++ apply vis_true in Hv'; destruct Hv' as [Hv1 Hv2]; apply Hpi; symmetry.
              apply Hgap; auto.
              destruct (le_lt_dec b (length (W i))) as [Hle|]; [|assumption].
              assert (C : vis b i = true) by (apply vis_true; auto); congruence.
      * intros i Hi Hs Hlo.
        destruct (le_lt_dec b (length (W i))) as [Hle|Hlt]; [now apply H4|].
        rewrite (Hgap i); auto.
      * subst b'; destruct (n_link nd) as [j|]; cbn in Hl.
        -- destruct Hl as [Hj [Hjs [Hjl _]]]; split; [exact Hj|]; split; [|reflexivity].
           eapply suf_trans; eauto.
        -- split; [reflexivity|]; f_equal.
           destruct (inv_root _ _ _ _ HI) as [H0 HW0].
           apply (inv_inj _ _ _ _ HI); auto; congruence.
    + destruct (n_link nd) as [j|]; [|lia]; cbn in Hl; destruct Hl as [_ [_ [Hl _]]]; lia.
    + exists h2, prev2, cur2, b2; auto.
Qed.

(** ** The word reached by the loop *)
Lemma LongestOld_found hk prev p b :
  LI hk prev (Some p) b -> Sub s (W p ++ [c]) -> LongestOld s c (W p ++ [c]).
Proof.
  intros [_ [_ [_ [H4 [Hp [Hps Hb]]]]]] HS.
  split; [apply suf_snoc; auto|]; split; [exact HS|].
  intros v Hv HSv.
  destruct (suf_snoc_inv _ _ _ Hv) as [->|[v' [-> Hv']]]; [cbn; lia|].
  rewrite !app_length; cbn.
  destruct (le_lt_dec (length v') (length (W p))) as [|Hlt]; [lia|exfalso].
  (* the canonical extension of v' is still a suffix of s and longer than W p *)
  destruct (Canon_exists s v') as [w [Hw1 [Hw2 Hw3]]]; [eapply Sub_snoc; eauto|].
  destruct (inv_surj _ _ _ _ HI w Hw3) as [i [Hi HWi]].
  assert (Hws : suf w s).
  { assert (Ho : Occ s w (length s)).
    { apply Hw2; eapply Occ_suf; [exact Hv'|apply Occ_full]. }
    destruct Ho as [_ Ho]; now rewrite firstn_all in Ho. }
  apply (H4 i Hi).
  - now rewrite HWi.
  - rewrite HWi; apply suf_length in Hw1; lia.
  - rewrite HWi; eapply eqv_Sub; [|exact HSv]; apply eqv_snoc, eqv_sym, Hw2.
Qed.
Lemma LongestOld_none hk prev b :
  LI hk prev None b -> LongestOld s c [].
Proof.
  intros [_ [_ [_ [H4 [Hb _]]]]]; subst b.
  split; [apply suf_nil|]; split; [apply Sub_nil|].
  intros v Hv HSv.
  destruct (suf_snoc_inv _ _ _ Hv) as [->|[v' [-> Hv']]]; [cbn; lia|exfalso].
  destruct (Canon_exists s v') as [w [Hw1 [Hw2 Hw3]]]; [eapply Sub_snoc; eauto|].
  destruct (inv_surj _ _ _ _ HI w Hw3) as [i [Hi HWi]].
  assert (Hws : suf w s).
  { assert (Ho : Occ s w (length s)).
    { apply Hw2; eapply Occ_suf; [exact Hv'|apply Occ_full]. }
    destruct Ho as [_ Ho]; now rewrite firstn_all in Ho. }
  apply (H4 i Hi).
  - now rewrite HWi.
  - rewrite HWi; lia.
  - rewrite HWi; eapply eqv_Sub; [|exact HSv]; apply eqv_snoc, eqv_sym, Hw2.
Qed.

(** words of visited nodes extended by c become the new full word *)
Lemma vis_iff hk prev cur b i :
  LI hk prev cur b ->
  match cur with Some p => Sub s (W p ++ [c]) | None => True end ->
  i < z -> suf (W i) s -> (vis b i = true <-> ~ Sub s (W i ++ [c])).
Proof.
  intros HL HS Hi Hs; pose proof HL as [_ [_ [_ [H4 Hc]]]].
  rewrite vis_true; split; [intros [_ Hb]; now apply H4|].
  intros Hn; split; [exact Hs|].
  destruct cur as [p|]; [|lia]; destruct Hc as [Hp [Hps ->]].
  destruct (le_lt_dec (S (length (W p))) (length (W i))) as [|Hlt]; [assumption|exfalso].
  apply Hn; eapply Sub_suf; [|exact HS]; apply suf_snoc; split; [reflexivity|].
  apply (suf_comparable _ _ s); auto; lia.
Qed.

Lemma W_Sub i : i < z -> Sub s (W i).
Proof.
  intros Hi; destruct (idx_node i Hi) as [nd Hnd].
  apply (ok_canon _ _ _ _ _ (inv_node _ _ _ _ HI _ _ Hnd)).
Qed.
Lemma W_Canon i : i < z -> Canon s (W i).
Proof.
  intros Hi; destruct (idx_node i Hi) as [nd Hnd].
  apply (ok_canon _ _ _ _ _ (inv_node _ _ _ _ HI _ _ Hnd)).
Qed.
Lemma W_len i : i < z -> length (W i) <= length s.
Proof. intros Hi; apply Sub_length, W_Sub, Hi. Qed.
Lemma W_eqv i j : i < z -> j < z -> eqv s (W i) (W j) -> i = j.
Proof.
  intros Hi Hj He; apply (inv_inj _ _ _ _ HI); auto.
  apply (Canon_uniq s); auto using W_Canon.
Qed.

Lemma new_link_ok x W1 n y :
  LongestOld s c x -> W1 z = s' -> W1 y = x -> y < n -> link_ok s' W1 n z (Some y).
Proof.
  intros HX Hz Hy Hn; cbn; rewrite Hz, Hy; split; [exact Hn|].
  pose proof HX as [HX1 [HX2 HX3]].
  split; [exact HX1|]; split.
  - apply Sub_length in HX2; rewrite app_length; cbn; lia.
  - intros w Hw Hws Hlt; destruct (Canon_new_cases _ _ _ Hw) as [Hc|[->|Hl]].
    + apply HX3; [exact Hws|apply Hc].
    + lia.
    + now rewrite (LongestOld_uniq _ _ _ _ Hl HX).
Qed.
Lemma old_trans_none b hk prev cur W1 n i a :
  LI hk prev cur b ->
  match cur with Some p => Sub s (W p ++ [c]) | None => True end ->
  i < z -> W1 i = W i ->
  (vis b i = true -> a <> c) ->
  ~ Sub s (W i ++ [a]) -> trans_ok s' W1 n i a None.
Proof.
  intros HL HS Hi HW Hv Hn; cbn; rewrite HW; intros C.
  apply Sub_app_iff in C; destruct C as [C|C]; [contradiction|].
  apply suf_snoc in C; destruct C as [-> C].
  apply Hv; [|reflexivity]; eapply vis_iff; eauto.
Qed.
Lemma vis_trans_ok b hk prev cur W1 n i :
  LI hk prev cur b -> i < z -> W1 i = W i -> W1 z = s' -> z < n ->
  vis b i = true -> trans_ok s' W1 n i c (Some z).
Proof.
  intros HL Hi HW Hz Hn Hv; cbn; rewrite HW, Hz; split; [exact Hn|].
  apply vis_true in Hv; destruct Hv as [Hv1 Hv2].
  assert (Hs : suf (W i ++ [c]) s') by (apply suf_snoc; auto).
  split; [exact Hs|]; apply new_word_eqv; [exact Hs|].
  destruct HL as [_ [_ [_ [H4 _]]]]; apply H4; auto.
Qed.
Lemma new_not_suf i : i < z -> ~ suf s' (W i).
Proof.
  intros Hi C; apply (full_not_old s c); eapply Sub_suf; [exact C|]; now apply W_Sub.
Qed.

Lemma mk_len b i nd : n_len (mk b i nd) = n_len nd.
Proof. unfold mk; destruct (vis b i); reflexivity. Qed.
Lemma mk_fe b i nd : n_fe (mk b i nd) = n_fe nd.
Proof. unfold mk; destruct (vis b i); reflexivity. Qed.
Lemma mk_link b i nd : n_link (mk b i nd) = n_link nd.
Proof. unfold mk; destruct (vis b i); reflexivity. Qed.
Lemma mk_keys b i nd : NoDup (dkeys (n_trans nd)) -> NoDup (dkeys (n_trans (mk b i nd))).
Proof. unfold mk; destruct (vis b i); cbn; auto; intros; apply NoDup_dset; auto. Qed.
Lemma mk_trans b i nd a :
  dget (n_trans (mk b i nd)) a =
  if vis b i && teq a c then Some z else dget (n_trans nd) a.
Proof.
  unfold mk; destruct (vis b i); cbn; [|reflexivity].
  rewrite dget_dset; destruct (teq_spec c a) as [->|Hn].
  - now rewrite teq_refl.
  - destruct (teq_spec a c) as [->|]; [contradiction|reflexivity].
Qed.

(** ** No clone *)
Lemma step_noclone hk prev cur b x y :
  LI hk prev cur b ->
  match cur with Some p => Sub s (W p ++ [c]) | None => True end ->
  LongestOld s c x -> y < z -> W y = x ->
  Inv (fun i => if i =? z then s' else W i) s' (lupd hk z (set_link (Some y))) z.
Proof.
  intros HL HS HX Hy HWy.
  pose proof HL as [H1 [H2 [H3 _]]].
  set (W1 := fun i => if i =? z then s' else W i).
  assert (HWz : W1 z = s') by (unfold W1; now rewrite Nat.eqb_refl).
  assert (HWo : forall i, i < z -> W1 i = W i).
  { intros i Hi; unfold W1; destruct (Nat.eqb_spec i z); [lia|reflexivity]. }
  assert (Hlen : length (lupd hk z (set_link (Some y))) = S z) by (rewrite lupd_length; exact H1).
  assert (Hxc : Canon s x) by (rewrite <- HWy; now apply W_Canon).
  constructor.
  - intros i nd Hnd; rewrite Hlen.
    assert (Hi : i < S z) by (rewrite <- Hlen; apply nth_error_Some; congruence).
    rewrite nth_error_lupd in Hnd.
    destruct (Nat.eqb_spec z i) as [<-|Hzi].
    + rewrite H2 in Hnd; cbn in Hnd; injection Hnd as <-.
      constructor; cbn [n_len n_trans n_fe n_term n_link n_rev set_link new0].
      * rewrite HWz, app_length; cbn; lia.
      * rewrite HWz; apply Canon_full.
      * rewrite HWz; replace (length s + 1) with (S (length s)) by lia; apply first_end_new.
      * constructor.
      * apply (new_link_ok x); auto; rewrite HWo; auto.
      * intros a; cbn; rewrite HWz; intros C; apply Sub_length in C; rewrite !app_length in C; cbn in C; lia.
    + assert (Hiz : i < z) by lia.
      destruct (idx_node i Hiz) as [n0 Hn0].
      rewrite (H3 i Hiz), Hn0 in Hnd; cbn in Hnd; injection Hnd as <-.
      destruct (inv_node _ _ _ _ HI _ _ Hn0) as [K1 K2 K3 K4 K5 K6].
      constructor.
      * now rewrite mk_len, HWo.
      * rewrite HWo by auto; now apply Canon_mono.
      * rewrite mk_fe, HWo by auto; now apply first_end_app.
      * now apply mk_keys.
      * rewrite mk_link; destruct (n_link n0) as [j|]; cbn in K5 |- *; [|now rewrite HWo].
        destruct K5 as [Hj [Hjs [Hjl Hjm]]].
        rewrite !HWo by auto; split; [lia|]; split; [exact Hjs|]; split; [exact Hjl|].
        intros w Hw Hws Hwl; destruct (Canon_new_cases _ _ _ Hw) as [Hc|[->|Hl]].
        -- now apply Hjm.
        -- exfalso; apply (new_not_suf i); auto.
        -- pose proof (LongestOld_uniq _ _ _ _ Hl HX) as Hwx; rewrite Hwx in *; clear Hwx Hl; now apply Hjm.
      * intros a; rewrite mk_trans; specialize (K6 a).
        destruct (vis b i && teq a c) eqn:Hv.
        { apply andb_true_iff in Hv; destruct Hv as [Hv Ha].
          destruct (teq_spec a c) as [->|]; [|discriminate].
          eapply vis_trans_ok; eauto. }
        destruct (dget (n_trans n0) a) as [j|]; cbn in K6.
        -- destruct K6 as [Hj [Hjs Hje]]; cbn; rewrite !HWo by auto.
           split; [lia|]; split; [exact Hjs|].
           destruct (class_after s c _ _ x (W_Canon j Hj) Hjs Hje HX)
             as [?|[_ [_ [Q1 [Q2 [Q3 _]]]]]]; [assumption|exfalso].
           rewrite (Canon_uniq s x (W j) Hxc (W_Canon j Hj) Q2) in Q3; lia.
        -- eapply old_trans_none; eauto.
           intros Hv' ->; rewrite Hv', teq_refl in Hv; discriminate.
  - rewrite Hlen; intros i j Hi Hj Hij; unfold W1 in Hij.
    destruct (Nat.eqb_spec i z) as [->|Hiz], (Nat.eqb_spec j z) as [->|Hjz]; auto.
    + assert (Hjl : length (W j) <= length s) by (apply W_len; lia).
      rewrite <- Hij, app_length in Hjl; cbn in Hjl; lia.
    + assert (Hjl : length (W i) <= length s) by (apply W_len; lia).
      rewrite Hij, app_length in Hjl; cbn in Hjl; lia.
    + apply (inv_inj _ _ _ _ HI); auto; lia.
  - intros w Hw; rewrite Hlen; destruct (Canon_new_cases _ _ _ Hw) as [Hc|[->|Hl]].
    + destruct (inv_surj _ _ _ _ HI w Hc) as [i [Hi HWi]]; exists i; split; [lia|now rewrite HWo].
    + exists z; split; [lia|exact HWz].
    + exists y; split; [lia|]; rewrite HWo by auto; rewrite HWy; symmetry; eapply LongestOld_uniq; eauto.
  - rewrite Hlen; destruct (inv_root _ _ _ _ HI); split; [lia|now rewrite HWo].
  - rewrite Hlen; split; [lia|exact HWz].
Qed.

(** ** Clone *)
Section Clone.
Variables (hk : heap T) (prev : option nat) (p q b : nat) (np nq : node T).
Hypothesis HL : LI hk prev (Some p) b.
Hypothesis HS : Sub s (W p ++ [c]).
Hypothesis Hnp : nth_error h p = Some np.
Hypothesis Hpq : dget (n_trans np) c = Some q.
Hypothesis Hnq : nth_error h q = Some nq.
Hypothesis Hdiff : n_len nq <> n_len np + 1.
Notation x := (W p ++ [c]).

Lemma p_idx : p < z. Proof. eapply node_idx; eauto. Qed.
Lemma q_idx : q < z. Proof. eapply node_idx; eauto. Qed.
Lemma x_long : LongestOld s c x.
Proof. eapply LongestOld_found; eauto. Qed.
Lemma x_suf_q : suf x (W q).
Proof.
  pose proof (ok_trans _ _ _ _ _ (inv_node _ _ _ _ HI _ _ Hnp) c) as K; rewrite Hpq in K; apply K.
Qed.
Lemma x_eqv_q : eqv s x (W q).
Proof.
  pose proof (ok_trans _ _ _ _ _ (inv_node _ _ _ _ HI _ _ Hnp) c) as K; rewrite Hpq in K; apply K.
Qed.
Lemma x_lt_q : length x < length (W q).
Proof.
  pose proof (suf_length _ _ x_suf_q) as K.
  rewrite (ok_len _ _ _ _ _ (inv_node _ _ _ _ HI _ _ Hnp)),
          (ok_len _ _ _ _ _ (inv_node _ _ _ _ HI _ _ Hnq)) in Hdiff.
  rewrite app_length in *; cbn in *; lia.
Qed.
Lemma x_fresh i : i < z -> W i <> x.
Proof.
  intros Hi C; pose proof x_lt_q as K.
  assert (i = q) by (apply W_eqv; auto using q_idx; rewrite C; apply x_eqv_q).
  subst i; rewrite C in K; lia.
Qed.

(** the nodes whose c-transition moves from q to the clone *)
Definition red i : bool :=
  if suf_dec (W i) (W p) then
    match nth_error h i with
    | Some nd => match dget (n_trans nd) c with Some d => d =? q | None => false end
    | None => false
    end
  else false.
Lemma red_true i nd : nth_error h i = Some nd ->
  (red i = true <-> suf (W i) (W p) /\ dget (n_trans nd) c = Some q).
Proof.
  intros Hn; unfold red; destruct (suf_dec (W i) (W p)) as [Hs|Hs].
  - rewrite Hn; destruct (dget (n_trans nd) c) as [d|].
    + rewrite Nat.eqb_eq; split; [intros ->; auto|intros [_ K]; congruence].
    + split; [discriminate|intros [_ K]; discriminate].
  - split; [discriminate|tauto].
Qed.
Lemma red_up i j ni : i < z -> nth_error h j = Some ni ->
  red i = true -> suf (W i) (W j) -> suf (W j) (W p) -> dget (n_trans ni) c = Some q.
Proof.
  intros Hi Hj Hr Hij Hjp.
  destruct (idx_node i Hi) as [nd Hnd]; apply (red_true i nd Hnd) in Hr; destruct Hr as [_ Hr].
  pose proof (ok_trans _ _ _ _ _ (inv_node _ _ _ _ HI _ _ Hnd) c) as K; rewrite Hr in K.
  destruct K as [_ [_ Ke]].
  pose proof (ok_trans _ _ _ _ _ (inv_node _ _ _ _ HI _ _ Hj) c) as Kj.
  assert (Hje : eqv s (W j ++ [c]) x).
  { apply (eqv_between s (W i ++ [c])).
    - now apply suf_snoc.
    - now apply suf_snoc.
    - eapply eqv_trans; [exact Ke|apply eqv_sym, x_eqv_q]. }
  destruct (dget (n_trans ni) c) as [d|]; cbn in Kj.
  - destruct Kj as [Hd [_ Hde]]; f_equal; apply W_eqv; auto using q_idx.
    eapply eqv_trans; [apply eqv_sym, Hde|]; eapply eqv_trans; [exact Hje|apply x_eqv_q].
  - exfalso; apply Kj; eapply eqv_Sub; [apply eqv_sym, Hje|exact HS].
Qed.

(** state of a node before the redirect loop, and during it *)
Definition g2 i (nd : node T) : node T :=
  let nd1 := mk b i nd in if q =? i then set_link (Some (S z)) nd1 else nd1.
Definition g3 bb i (nd : node T) : node T :=
  if red i && (bb <=? length (W i)) then set_trans c (S z) (g2 i nd) else g2 i nd.
Definition clone0 : node T :=
  mkNode (n_len np + 1) (n_trans (mk b q nq)) (n_fe nq) false (n_link nq) [].

Definition RI (hr : heap T) (bb : nat) : Prop :=
  length hr = S (S z) /\ nth_error hr z = Some new0 /\ nth_error hr (S z) = Some clone0 /\ forall i, i < z -> nth_error hr i = option_map (g3 bb i) (nth_error h i).

Lemma redirect_ok fuel : forall hr cur bb,
  RI hr bb ->
  match cur with
  | Some r => r < z /\ suf (W r) (W p) /\ bb = S (length (W r)) /\ length (W r) + 2 <= fuel
  | None => bb = 0 /\ 1 <= fuel
  end ->
  exists hr', redirect_loop fuel hr c q (S z) cur = Some hr' /\ RI hr' 0.
Proof.
  induction fuel as [|fuel IH]; intros hr cur bb HR Hc.
  { destruct cur; lia. }
  destruct cur as [r|]; cbn [redirect_loop].
  2:{ destruct Hc as [-> _]; eauto. }
  destruct Hc as [Hr [Hrp [Hbb Hf]]].
  destruct HR as [R1 [R2 [R3 R4]]].
  destruct (idx_node r Hr) as [nd Hnd].
  rewrite (R4 r Hr), Hnd; cbn [option_map].
  pose proof HL as [_ [_ [_ [_ [Hp [Hps Hb]]]]]].
  assert (Hvr : vis b r = false).
  { destruct (vis b r) eqn:Hv; [|reflexivity]; apply vis_true in Hv; apply suf_length in Hrp; lia. }
  assert (Hrq : q =? r = false).
  { apply Nat.eqb_neq; intros Hqr; rewrite <- Hqr in Hrp; pose proof x_lt_q as K; apply suf_length in Hrp.
    rewrite app_length in K; cbn in K; lia. }
  assert (Hg : g3 bb r nd = nd).
  { unfold g3; replace (bb <=? length (W r)) with false by (symmetry; apply Nat.leb_gt; lia).
    rewrite andb_false_r; unfold g2, mk; rewrite Hrq, Hvr; reflexivity. }
  rewrite Hg.
  assert (Hstop : red r = false -> RI hr 0).
  { intros Hnr; split; [exact R1|]; split; [exact R2|]; split; [exact R3|].
    intros i Hi; rewrite (R4 i Hi); destruct (nth_error h i) as [ni|] eqn:Hni; [|reflexivity].
    cbn [option_map]; f_equal; unfold g3; cbn [Nat.leb]; rewrite andb_true_r.
    destruct (red i) eqn:Hri; [|reflexivity]; cbn [andb].
    destruct (Nat.leb_spec bb (length (W i))) as [|Hlt]; [reflexivity|exfalso].
    pose proof Hri as Hri'; apply (red_true i ni Hni) in Hri'; destruct Hri' as [Hip _].
    assert (Hir : suf (W i) (W r)) by (apply (suf_comparable _ _ (W p)); auto; lia).
    assert (C : red r = true) by (apply (red_true r nd Hnd); split; [exact Hrp|eapply red_up; eauto]).
    congruence. }
  destruct (dget (n_trans nd) c) as [d|] eqn:Hd.
  - destruct (Nat.eqb_spec d q) as [->|Hdq].
    + pose proof (ok_link _ _ _ _ _ (inv_node _ _ _ _ HI _ _ Hnd)) as Hl.
      set (bb' := match n_link nd with Some j => S (length (W j)) | None => 0 end).
      assert (Hrr : red r = true) by (apply (red_true r nd Hnd); auto).
      assert (Hb' : bb' <= length (W r)).
      { subst bb'; destruct (n_link nd) as [j|]; cbn in Hl; [destruct Hl as [_ [_ [Hl _]]]; lia|lia]. }
      apply (IH _ _ bb').
      * split; [rewrite lupd_length; exact R1|].
        split; [rewrite nth_error_lupd; destruct (Nat.eqb_spec r z); [lia|exact R2]|].
        split; [rewrite nth_error_lupd; destruct (Nat.eqb_spec r (S z)); [lia|exact R3]|].
        intros i Hi; rewrite nth_error_lupd; destruct (Nat.eqb_spec r i) as [<-|Hri].
        -- rewrite (R4 r Hr), Hnd; cbn; f_equal; rewrite Hg.
           unfold g3; rewrite Hrr; replace (bb' <=? length (W r)) with true by (symmetry; apply Nat.leb_le; lia).
           cbn; f_equal; unfold g2, mk; rewrite Hrq, Hvr; reflexivity.
        -- rewrite (R4 i Hi); destruct (nth_error h i) as [ni|] eqn:Hni; [|reflexivity]; cbn; f_equal.
           unfold g3; destruct (red i) eqn:Hre; [|reflexivity]; cbn [andb].
           pose proof Hre as Hre'; apply (red_true i ni Hni) in Hre'; destruct Hre' as [Hip _].
           destruct (Nat.leb_spec bb (length (W i))), (Nat.leb_spec bb' (length (W i))); auto; [lia|exfalso].
           destruct (Nat.eq_dec (length (W i)) (length (W r))) as [He|He].
           ++ apply Hri; symmetry; apply (inv_inj _ _ _ _ HI); auto; apply (suf_same_len _ _ (W p)); auto.
           ++ assert (Hir : suf (W i) (W r)) by (apply (suf_comparable _ _ (W p)); auto; lia).
              subst bb'; destruct (n_link nd) as [j|]; cbn in Hl.
              ** destruct Hl as [_ [_ [_ Hl]]]; specialize (Hl _ (W_Canon i Hi) Hir); lia.
              ** apply suf_length in Hir; rewrite Hl in *; cbn in *; lia.
      * subst bb'; destruct (n_link nd) as [j|]; cbn in Hl.
        -- destruct Hl as [Hj [Hjs [Hjl _]]]; split; [exact Hj|]; split; [eapply suf_trans; eauto|]; split; [reflexivity|lia].
        -- split; [reflexivity|lia].
    + exists hr; split; [reflexivity|]; apply Hstop.
      destruct (red r) eqn:Hr'; [|reflexivity]; apply (red_true r nd Hnd) in Hr'; destruct Hr'; congruence.
  - exists hr; split; [reflexivity|]; apply Hstop.
    destruct (red r) eqn:Hr'; [|reflexivity]; apply (red_true r nd Hnd) in Hr'; destruct Hr'; congruence.
Qed.

Lemma red_vis i : red i = true -> vis b i = false.
Proof.
  intros Hr; destruct (vis b i) eqn:Hv; [|reflexivity]; exfalso.
  apply vis_true in Hv; destruct Hv as [_ Hv].
  pose proof HL as [_ [_ [_ [_ [_ [_ Hb]]]]]].
  unfold red in Hr; destruct (suf_dec (W i) (W p)) as [Hs|]; [|discriminate].
  apply suf_length in Hs; lia.
Qed.
Lemma g3_len i nd : n_len (g3 0 i nd) = n_len nd.
Proof.
  unfold g3, g2; destruct (red i && _), (q =? i); cbn; apply mk_len.
Qed.
Lemma g3_fe i nd : n_fe (g3 0 i nd) = n_fe nd.
Proof.
  unfold g3, g2; destruct (red i && _), (q =? i); cbn; apply mk_fe.
Qed.
Lemma g3_link i nd : n_link (g3 0 i nd) = if q =? i then Some (S z) else n_link nd.
Proof.
  unfold g3, g2; destruct (red i && _), (q =? i); cbn; auto; apply mk_link.
Qed.
Lemma g3_keys i nd : NoDup (dkeys (n_trans nd)) -> NoDup (dkeys (n_trans (g3 0 i nd))).
Proof.
  intros H; unfold g3, g2; destruct (red i && _), (q =? i); cbn; try apply NoDup_dset; now apply mk_keys.
Qed.
Lemma g3_trans i nd a :
  dget (n_trans (g3 0 i nd)) a =
  if vis b i && teq a c then Some z
  else if red i && teq a c then Some (S z) else dget (n_trans nd) a.
Proof.
  assert (K : dget (n_trans (g2 i nd)) a = if vis b i && teq a c then Some z else dget (n_trans nd) a).
  { unfold g2; destruct (q =? i); cbn; apply mk_trans. }
  unfold g3; cbn [Nat.leb]; rewrite andb_true_r; destruct (red i) eqn:Hr; cbn [andb].
  - cbn [set_trans n_trans]; rewrite dget_dset, K, (red_vis i Hr); cbn [andb].
    destruct (teq_spec c a) as [Hca|Hn]; [rewrite Hca, teq_refl; reflexivity|].
    destruct (teq_spec a c) as [Hca|]; [congruence|reflexivity].
  - rewrite K; reflexivity.
Qed.

Lemma step_clone hr : RI hr 0 ->
  Inv (fun i => if i =? z then s' else if i =? S z then x else W i) s'
      (lupd hr z (set_link (Some (S z)))) z.
Proof.
  intros [R1 [R2 [R3 R4]]].
  pose proof x_long as HX; pose proof x_suf_q as Hxs; pose proof x_eqv_q as Hxe;
  pose proof x_lt_q as Hxl; pose proof q_idx as Hq; pose proof p_idx as Hp.
  set (W1 := fun i => if i =? z then s' else if i =? S z then x else W i).
  assert (HWz : W1 z = s') by (unfold W1; now rewrite Nat.eqb_refl).
  assert (HWc : W1 (S z) = x).
  { unfold W1; destruct (Nat.eqb_spec (S z) z); [lia|]; now rewrite Nat.eqb_refl. }
  assert (HWo : forall i, i < z -> W1 i = W i).
  { intros i Hi; unfold W1; destruct (Nat.eqb_spec i z); [lia|]; destruct (Nat.eqb_spec i (S z)); [lia|reflexivity]. }
  assert (Hlen : length (lupd hr z (set_link (Some (S z)))) = S (S z)) by (rewrite lupd_length; exact R1).
  constructor.
  - intros i nd Hnd; rewrite Hlen.
    assert (Hi : i < S (S z)) by (rewrite <- Hlen; apply nth_error_Some; congruence).
    rewrite nth_error_lupd in Hnd.
    destruct (Nat.eqb_spec z i) as [<-|Hzi]; [|destruct (Nat.eqb_spec (S z) i) as [<-|Hci]].
    + rewrite R2 in Hnd; cbn in Hnd; injection Hnd as <-.
      constructor; cbn [n_len n_trans n_fe n_term n_link n_rev set_link new0].
      * rewrite HWz, app_length; cbn; lia.
      * rewrite HWz; apply Canon_full.
      * rewrite HWz; replace (length s + 1) with (S (length s)) by lia; apply first_end_new.
      * constructor.
      * apply (new_link_ok x); auto.
      * intros a; cbn; rewrite HWz; intros C; apply Sub_length in C; rewrite !app_length in C; cbn in C; lia.
    + rewrite R3 in Hnd; injection Hnd as <-.
      destruct (inv_node _ _ _ _ HI _ _ Hnq) as [K1 K2 K3 K4 K5 K6].
      constructor; cbn [n_len n_trans n_fe n_term n_link n_rev clone0].
      * rewrite HWc, (ok_len _ _ _ _ _ (inv_node _ _ _ _ HI _ _ Hnp)), app_length; reflexivity.
      * rewrite HWc; now apply LongestOld_Canon.
      * rewrite HWc; apply first_end_app; destruct K3 as [K3a K3b]; split.
        -- now apply Hxe.
        -- intros e He; apply K3b; now apply Hxe.
      * now apply mk_keys.
      * destruct (n_link nq) as [j|]; cbn in K5 |- *.
        2:{ rewrite K5 in Hxl; cbn in Hxl; lia. }
        destruct K5 as [Hj [Hjs [Hjl Hjm]]].
        rewrite HWo, HWc by auto; split; [lia|].
        assert (Hjx : length (W j) < length x).
        { destruct (le_lt_dec (length x) (length (W j))) as [Hle|]; [exfalso|assumption].
          assert (Hxj : suf x (W j)) by (apply (suf_comparable _ _ (W q)); auto).
          assert (Hjq : j = q) by (apply W_eqv; auto; eapply eqv_between; eauto).
          subst j; lia. }
        split; [apply (suf_comparable _ _ (W q)); auto; lia|]; split; [exact Hjx|].
        intros w Hw Hws Hwl; destruct (Canon_new_cases _ _ _ Hw) as [Hc|[->|Hl]].
        -- apply Hjm; [exact Hc|eapply suf_trans; eauto|lia].
        -- exfalso; pose proof (suf_length _ _ (proj1 HX)); lia.
        -- rewrite (LongestOld_uniq _ _ _ _ Hl HX) in Hwl; lia.
      * intros a; rewrite mk_trans; specialize (K6 a).
        destruct (vis b q && teq a c) eqn:Hv.
        { apply andb_true_iff in Hv; destruct Hv as [Hv Ha].
          destruct (teq_spec a c) as [->|]; [|discriminate].
          apply vis_true in Hv; destruct Hv as [Hv1 Hv2].
          cbn; rewrite HWc, HWz; split; [lia|].
          assert (Hs : suf (x ++ [c]) s') by (apply suf_snoc; split; [reflexivity|eapply suf_trans; eauto]).
          split; [exact Hs|]; apply new_word_eqv; [exact Hs|].
          intros C; destruct HL as [_ [_ [_ [H4 _]]]]; apply (H4 q Hq Hv1 Hv2).
          eapply eqv_Sub; [|exact C]; now apply eqv_snoc. }
        destruct (dget (n_trans nq) a) as [j|]; cbn in K6.
        -- destruct K6 as [Hj [Hjs Hje]]; cbn; rewrite HWc, HWo by auto; split; [lia|].
           assert (Hs1 : suf (x ++ [a]) (W j)).
           { eapply suf_trans; [|exact Hjs]; now apply suf_snoc. }
           assert (He1 : eqv s (x ++ [a]) (W j)).
           { eapply eqv_trans; [|exact Hje]; now apply eqv_snoc. }
           split; [exact Hs1|].
           destruct (class_after s c _ _ x (W_Canon j Hj) Hs1 He1 HX)
             as [?|[_ [Q1 _]]]; [assumption|exfalso].
           apply suf_length in Q1; rewrite (app_length x [a]) in Q1; cbn in Q1; lia.
        -- cbn; rewrite HWc; intros C.
           assert (Hnx : ~ Sub s (x ++ [a])).
           { intros C'; apply K6; eapply eqv_Sub; [|exact C']; now apply eqv_snoc. }
           apply Sub_app_iff in C; destruct C as [C|C]; [contradiction|].
           apply suf_snoc in C; destruct C as [-> C].
           assert (Hqs : suf (W q) s).
           { assert (Ho : Occ s (W q) (length s)).
             { apply Hxe; eapply Occ_suf; [exact C|apply Occ_full]. }
             destruct Ho as [_ Ho]; now rewrite firstn_all in Ho. }
           assert (Hv' : vis b q = true) by (eapply (vis_iff _ _ (Some p)); eauto).
           rewrite Hv', teq_refl in Hv; discriminate.
    + assert (Hiz : i < z) by lia.
      destruct (idx_node i Hiz) as [n0 Hn0].
      rewrite (R4 i Hiz), Hn0 in Hnd; cbn in Hnd; injection Hnd as <-.
      destruct (inv_node _ _ _ _ HI _ _ Hn0) as [K1 K2 K3 K4 K5 K6].
      constructor.
      * now rewrite g3_len, HWo.
      * rewrite HWo by auto; now apply Canon_mono.
      * rewrite g3_fe, HWo by auto; now apply first_end_app.
      * now apply g3_keys.
      * rewrite g3_link; destruct (Nat.eqb_spec q i) as [<-|Hqi].
        -- cbn; rewrite HWc, HWo by auto; split; [lia|]; split; [exact Hxs|]; split; [exact Hxl|].
           intros w Hw Hws Hwl; destruct (Canon_new_cases _ _ _ Hw) as [Hc|[->|Hl]].
           ++ destruct (le_lt_dec (length w) (length x)) as [|Hlt]; [assumption|exfalso].
              assert (Hxw : suf x w) by (apply (suf_comparable _ _ (W q)); auto; lia).
              assert (Hwe : eqv s w (W q)) by (eapply eqv_between; eauto).
              rewrite (Canon_uniq s w (W q) Hc (W_Canon q Hq) Hwe) in Hwl; lia.
           ++ exfalso; apply (new_not_suf q); auto.
           ++ now rewrite (LongestOld_uniq _ _ _ _ Hl HX).
        -- destruct (n_link n0) as [j|]; cbn in K5 |- *; [|now rewrite HWo].
           destruct K5 as [Hj [Hjs [Hjl Hjm]]].
           rewrite !HWo by auto; split; [lia|]; split; [exact Hjs|]; split; [exact Hjl|].
           intros w Hw Hws Hwl; destruct (Canon_new_cases _ _ _ Hw) as [Hc|[->|Hl]].
           ++ now apply Hjm.
           ++ exfalso; apply (new_not_suf i); auto.
           ++ pose proof (LongestOld_uniq _ _ _ _ Hl HX) as Hwx; rewrite Hwx in *; clear Hwx Hl.
              destruct (le_lt_dec (length x) (length (W j))) as [|Hlt]; [assumption|exfalso].
              destruct (W_Sub i Hiz) as [e He].
              assert (Heq : Occ s (W q) e) by (apply Hxe; eapply Occ_suf; [exact Hws|exact He]).
              destruct (le_lt_dec (length (W i)) (length (W q))) as [Hle|Hgt].
              ** assert (Hiq : suf (W i) (W q)) by (eapply Occ_comparable; eauto).
                 apply Hqi; symmetry; apply W_eqv; auto; eapply eqv_between; eauto.
              ** assert (Hqi' : suf (W q) (W i)) by (eapply Occ_comparable; eauto; lia).
                 specialize (Hjm _ (W_Canon q Hq) Hqi' Hgt); lia.
      * intros a; rewrite g3_trans; specialize (K6 a).
        destruct (vis b i && teq a c) eqn:Hv.
        { apply andb_true_iff in Hv; destruct Hv as [Hv Ha].
          destruct (teq_spec a c) as [->|]; [|discriminate].
          eapply vis_trans_ok; eauto. }
        destruct (red i && teq a c) eqn:Hr.
        { apply andb_true_iff in Hr; destruct Hr as [Hr Ha].
          destruct (teq_spec a c) as [->|]; [|discriminate].
          apply (red_true i n0 Hn0) in Hr; destruct Hr as [Hip Hd]; rewrite Hd in K6.
          destruct K6 as [_ [_ K6]].
          cbn; rewrite HWc, HWo by auto; split; [lia|].
          assert (Hs : suf (W i ++ [c]) x) by (now apply suf_snoc).
          split; [exact Hs|]; apply eqv_app.
          - eapply eqv_trans; [exact K6|now apply eqv_sym].
          - destruct HX as [HX _]; split; intros _; [exact HX|eapply suf_trans; eauto]. }
        destruct (dget (n_trans n0) a) as [j|] eqn:Hda; cbn in K6.
        -- destruct K6 as [Hj [Hjs Hje]]; cbn; rewrite !HWo by auto.
           split; [lia|]; split; [exact Hjs|].
           destruct (class_after s c _ _ x (W_Canon j Hj) Hjs Hje HX)
             as [?|[_ [Q0 [Q1 [Q2 [Q3 _]]]]]]; [assumption|exfalso].
           assert (Hjq : j = q) by (apply W_eqv; auto; eapply eqv_trans; [apply eqv_sym, Q2|exact Hxe]).
           subst j; apply suf_snoc in Q0; destruct Q0 as [-> Q0].
           assert (C : red i = true) by (apply (red_true i n0 Hn0); auto).
           rewrite C, teq_refl in Hr; discriminate.
        -- eapply (old_trans_none _ _ _ (Some p)); eauto.
           intros Hv' ->; rewrite Hv', teq_refl in Hv; discriminate.
  - rewrite Hlen; intros i j Hi Hj Hij; unfold W1 in Hij.
    assert (Hxs' : x <> s').
    { intros C; destruct HX as [_ [HX _]]; rewrite C in HX; now apply full_not_old in HX. }
    assert (Hold : forall k, k < z -> W k <> s').
    { intros k Hk C; pose proof (W_len k Hk) as K; rewrite C, app_length in K; cbn in K; lia. }
    destruct (Nat.eqb_spec i z) as [->|Hiz], (Nat.eqb_spec j z) as [->|Hjz]; auto.
    + destruct (Nat.eqb_spec j (S z)) as [->|Hjc]; [congruence|].
      exfalso; apply (Hold j); [lia|congruence].
    + destruct (Nat.eqb_spec i (S z)) as [->|Hjc]; [congruence|].
      exfalso; apply (Hold i); [lia|congruence].
    + destruct (Nat.eqb_spec i (S z)) as [->|Hic], (Nat.eqb_spec j (S z)) as [->|Hjc]; auto.
      * exfalso; apply (x_fresh j); [lia|congruence].
      * exfalso; apply (x_fresh i); [lia|congruence].
      * apply (inv_inj _ _ _ _ HI); auto; lia.
  - intros w Hw; rewrite Hlen; destruct (Canon_new_cases _ _ _ Hw) as [Hc|[->|Hl]].
    + destruct (inv_surj _ _ _ _ HI w Hc) as [i [Hi HWi]]; exists i; split; [lia|now rewrite HWo].
    + exists z; split; [lia|exact HWz].
    + exists (S z); split; [lia|]; rewrite HWc; symmetry; eapply LongestOld_uniq; eauto.
  - rewrite Hlen; destruct (inv_root _ _ _ _ HI); split; [lia|now rewrite HWo].
  - rewrite Hlen; split; [lia|exact HWz].
Qed.
End Clone.

Lemma extend_ok : exists W1 h1 last1,
  extend h last c = Some (h1, last1) /\ Inv W1 s' h1 last1 /\ S (length h) <= length h1 <= S (S (length h)) /\
  (length s < 2 -> length h1 = S (length h)).
Proof.
  destruct (inv_last _ _ _ _ HI) as [Hlast HWlast].
  destruct (idx_node last Hlast) as [nl Hnl].
  assert (Hnlen : n_len nl = length s).
  { rewrite (ok_len _ _ _ _ _ (inv_node _ _ _ _ HI _ _ Hnl)); now rewrite HWlast. }
  unfold extend; rewrite Hnl, Hnlen; cbv zeta.
  change (mkNode (length s + 1) [] (length s + 1) false None []) with new0.
  destruct (extend_loop_ok (S (S (length s))) _ _ _ _ LI_init) as [h2 [prev2 [cur2 [b2 [Hrun [HL HS]]]]]].
  { rewrite HWlast; lia. }
  rewrite Hrun; destruct cur2 as [p|].
  - pose proof HL as [H1 [H2 [H3 [H4 [Hp [Hps Hb]]]]]].
    destruct (idx_node p Hp) as [np Hnp].
    assert (Hmk : mk b2 p np = np).
    { unfold mk; destruct (vis b2 p) eqn:Hv; [apply vis_true in Hv; lia|reflexivity]. }
    rewrite (H3 p Hp), Hnp; cbn [option_map]; rewrite Hmk.
    pose proof (inv_node _ _ _ _ HI _ _ Hnp) as Kp.
    pose proof (ok_trans _ _ _ _ _ Kp c) as Kt.
    destruct (dget (n_trans np) c) as [q|] eqn:Hq; [|contradiction].
    destruct Kt as [Hqz [Hqs Hqe]].
    destruct (idx_node q Hqz) as [nq Hnq].
    rewrite (H3 q Hqz), Hnq; cbn [option_map]; rewrite mk_len.
    destruct (Nat.eqb_spec (n_len nq) (n_len np + 1)) as [He|Hne].
    + do 3 eexists; split; [reflexivity|]; split; [|rewrite lupd_length; lia].
      eapply (step_noclone h2 prev2 (Some p) b2 (W p ++ [c]) q); eauto.
      * eapply LongestOld_found; eauto.
      * symmetry; apply suf_len_eq; [exact Hqs|].
        rewrite (ok_len _ _ _ _ _ Kp), (ok_len _ _ _ _ _ (inv_node _ _ _ _ HI _ _ Hnq)) in He.
        rewrite app_length; cbn; lia.
    + unfold insert_node; rewrite (H3 p Hp), Hnp, (H3 q Hqz), Hnq; cbn [option_map]; rewrite Hmk.
      cbv zeta; rewrite H1, mk_fe, mk_link.
      set (hr := lupd _ q _).
      destruct (redirect_ok h2 prev2 p q b2 np nq HL HS Hnp Hq Hnq Hne (S (S (n_len np))) hr (Some p) b2) as [hr' [Hrun' HR]].
      * unfold hr; split; [rewrite lupd_length, app_length, H1; cbn; lia|].
        split; [|split].
        -- rewrite nth_error_lupd; destruct (Nat.eqb_spec q z); [lia|].
           rewrite nth_error_app1 by lia; exact H2.
        -- rewrite nth_error_lupd; destruct (Nat.eqb_spec q (S z)); [lia|].
           rewrite nth_error_app2, H1, Nat.sub_diag by lia; reflexivity.
        -- intros i Hi; rewrite nth_error_lupd, nth_error_app1 by lia; rewrite (H3 i Hi).
           destruct (nth_error h i) as [ni|] eqn:Hni; [|now destruct (q =? i)].
           assert (Hg : g3 p q b2 b2 i ni = g2 q b2 i ni).
           { unfold g3; destruct (red p q i) eqn:Hr; [|reflexivity]; cbn [andb].
             destruct (Nat.leb_spec b2 (length (W i))) as [Hle|]; [|reflexivity]; exfalso.
             unfold red in Hr; destruct (suf_dec (W i) (W p)) as [Hs|]; [|discriminate].
             apply suf_length in Hs; lia. }
           cbn [option_map]; rewrite Hg; unfold g2; destruct (q =? i); reflexivity.
      * rewrite (ok_len _ _ _ _ _ Kp); split; [exact Hp|]; split; [apply suf_refl|]; split; [exact Hb|lia].
      * rewrite Hrun'; do 3 eexists; split; [reflexivity|]; split.
        -- eapply (step_clone h2 prev2 p q b2 np nq); eauto.
        -- rewrite lupd_length; destruct HR as [-> _].
           pose proof (x_lt_q p q np nq Hnp Hq Hnq Hne) as Hx.
           pose proof (W_len q Hqz) as Hx'; rewrite app_length in Hx; cbn in Hx; lia.
  - pose proof HL as [H1 [H2 [H3 [H4 [Hb Hprev]]]]]; subst prev2.
    destruct (inv_root _ _ _ _ HI) as [H0 HW0].
    do 3 eexists; split; [reflexivity|]; split; [|rewrite lupd_length; lia].
    eapply (step_noclone h2 _ None b2 [] 0); eauto.
    eapply LongestOld_none; eauto.
Qed.
End Step.

Lemma extend_all_ok t : forall W s h last, Inv W s h last ->
  exists W1 h1 last1, extend_all h last t = Some (h1, last1) /\ Inv W1 (s ++ t) h1 last1 /\   
    length h + length t <= length h1 <=
    length h + length t + ((length s + length t) - Nat.max 2 (length s)).
Proof.
  induction t as [|c t IH]; intros W s h last HI; cbn [extend_all].
  - exists W, h, last; rewrite app_nil_r; cbn [length]; split; [reflexivity|]; split; [exact HI|lia].
  - destruct (extend_ok W s h last c HI) as [W1 [h1 [l1 [-> [HI1 HS1]]]]].
    destruct (IH _ _ _ _ HI1) as [W2 [h2 [l2 [-> [HI2 HS2]]]]].
    exists W2, h2, l2; rewrite <- app_assoc in HI2; cbn [app] in HI2; split; [reflexivity|]; split; [exact HI2|].
    rewrite app_length in HS2; cbn [length] in *; lia.
Qed.

Theorem build_core_ok s : exists W h last,
  build_core s = Some (h, last) /\ Inv W s h last /\ 
  S (length s) <= length h <= 2 * length s + 1 /\
  (2 <= length s -> length h <= 2 * length s - 1).
Proof.
  destruct (extend_all_ok s _ _ _ _ Inv_init) as [W [h [l [H1 [H2 H3]]]]].
  exists W, h, l; cbn [app] in H2; split; [exact H1|]; split; [exact H2|].
  cbn [length] in H3; lia.
Qed.
End Inv.
