(** Correctness of [find_lcs] and [all_suffixes]. *)
From Coq Require Import Permutation.
From Verif Require Import Base Strings StringsExt Automaton AutomatonInv SpecSeq AutomatonProofs.

Section Lcs.
Context {T : Type} {E : Teq T} {O : TeqOk T}.
Implicit Types (s w m : list T) (h : heap T) (W : nat -> list T).

Section Walk.
Variables (W : nat -> list T) (s : list T) (h : heap T).
Hypothesis HA : AInv W s h.
Notation n := (length h).
Notation at_word := (at_word W s h).

(** suffixes longer than the link target belong to the same state *)
Lemma class_between i nd j v :
  nth_error h i = Some nd -> n_link nd = Some j ->
  suf v (W i) -> length (W j) < length v -> eqv s v (W i).
Proof.
  intros Hn Hl Hv Hlt.
  destruct (rev_parent W s h HA j i nd Hn Hl) as [Hj [Hjs [Hjl Hjm]]].
  assert (Hi : i < n) by (eapply node_idx; eauto).
  pose proof (a_canon W s h HA i Hi) as Hc.
  destruct (Canon_exists s v) as [w [Hw1 [Hw2 Hw3]]].
  { eapply Sub_suf; [exact Hv|apply Hc]. }
  destruct Hc as [[e He] Hc'].
  assert (Hoe : Occ s w e) by (apply Hw2; eapply Occ_suf; [exact Hv|exact He]).
  destruct (le_lt_dec (length (W i)) (length w)) as [Hle|Hgt].
  - assert (Hiw : suf (W i) w) by (eapply Occ_comparable; eauto).
    eapply eqv_trans; [|apply eqv_sym; apply (eqv_between s v (W i) w); auto; now apply eqv_sym].
    now apply eqv_sym.
  - assert (Hwi : suf w (W i)) by (eapply Occ_comparable; eauto; lia).
    specialize (Hjm w Hw3 Hwi Hgt); apply suf_length in Hw1; lia.
Qed.

(** the longest suffix of u that occurs in s *)
Definition longest_in (u m : list T) : Prop :=
  suf m u /\ Sub s m /\ forall v, suf v u -> Sub s v -> length v <= length m.

Lemma lcs_inner_ok t fuel : forall cur m u,
  at_word cur m -> suf m u -> length (W cur) < fuel ->
  (forall v, suf v u -> Sub s (v ++ [t]) -> length v <= length m) ->
  exists next cur1 m1,
    lcs_inner fuel h t cur (length m) = Some (next, cur1, length m1) /\
    suf m1 u /\ at_word cur1 m1 /\
    (forall v, suf v u -> Sub s (v ++ [t]) -> length v <= length m1) /\
    match next with
    | Some j => at_word j (m1 ++ [t])
    | None => m1 = [] /\ ~ Sub s [t]
    end.
Proof.
  induction fuel as [|fuel IH]; intros cur m u Hat Hmu Hf Hmax; [lia|].
  cbn [lcs_inner].
  destruct (idx_node h cur (proj1 Hat)) as [nd Hnd]; rewrite Hnd.
  pose proof (at_step W s h HA cur m nd t Hat Hnd) as K.
  destruct (dget (n_trans nd) t) as [j|].
  { exists (Some j), cur, m; auto. }
  destruct (n_link nd) as [l|] eqn:Hl.
  - destruct (rev_parent W s h HA l cur nd Hnd Hl) as [Hln [Hls [Hll Hlm]]].
    destruct (idx_node h l Hln) as [nl Hnl]; rewrite Hnl.
    rewrite (ok_len _ _ _ _ _ (ai_node _ _ _ HA _ _ Hnl)).
    destruct Hat as [Hc [Hms Hme]].
    assert (Hlm' : length (W l) < length m).
    { destruct (le_lt_dec (length m) (length (W l))) as [Hle|]; [exfalso|assumption].
      assert (Hml : suf m (W l)) by (apply (suf_comparable _ _ (W cur)); auto).
      assert (He : eqv s (W l) (W cur)) by (eapply eqv_between; eauto).
      rewrite (Canon_uniq s _ _ (a_canon W s h HA l Hln) (a_canon W s h HA cur Hc) He) in Hll; lia. }
    assert (Hlu : suf (W l) u).
    { eapply suf_trans; [|exact Hmu]; apply (suf_comparable _ _ (W cur)); auto; lia. }
    apply IH; [now apply at_self|exact Hlu|lia|].
    intros v Hv HSv.
    destruct (le_lt_dec (length v) (length (W l))) as [|Hlt]; [assumption|exfalso].
    specialize (Hmax v Hv HSv).
    assert (Hvm : suf v m) by (apply (suf_comparable _ _ u); auto).
    assert (Hve : eqv s v (W cur)).
    { eapply class_between; eauto; eapply suf_trans; eauto. }
    apply K; eapply eqv_Sub; [|exact HSv]; apply eqv_snoc.
    eapply eqv_trans; [exact Hve|now apply eqv_sym].
  - pose proof (ok_link _ _ _ _ _ (ai_node _ _ _ HA _ _ Hnd)) as L; rewrite Hl in L; cbn in L.
    assert (Hm : m = []) by (destruct Hat as [_ [Hs _]]; rewrite L in Hs; now apply suf_nil_inv).
    subst m; exists None, cur, []; auto 10.
Qed.

(** progress of the scan over the second sequence: u is the part already read *)
Definition best_ok (u : list T) (best : nat * nat * nat) : Prop :=
  let '(bl, e1, e2) := best in
  (bl = 0 /\ e1 = 0 /\ e2 = 0 \/
   exists w, length w = bl /\ 0 < bl /\ first_end s w e1 /\ first_end u w e2 /\
             forall v e, length v = bl -> Sub s v -> Occ u v e -> e2 <= e) /\
  forall v, Sub s v -> Sub u v -> length v <= bl.

Lemma lcs_loop_ok r : forall u cur m best,
  at_word cur m -> longest_in u m -> best_ok u best ->
  exists best', lcs_loop h (length u) cur (length m) best r = Some best' /\ best_ok (u ++ r) best'.
Proof.
  induction r as [|t r IH]; intros u cur m best Hat [Hmu [HmS Hmm]] Hb; cbn [lcs_loop].
  - exists best; rewrite app_nil_r; auto.
  - destruct (lcs_inner_ok t (length h) cur m u) as [next [cur1 [m1 [-> [Hm1u [Hat1 [Hmax1 Hnext]]]]]]]; auto.
    { pose proof (a_len W s h HA cur (proj1 Hat)); pose proof (ai_size _ _ _ HA); lia. }
    { intros v Hv HSv; apply Hmm; [exact Hv|]; eapply Sub_snoc; eauto. }
    set (cur2 := match next with Some j => j | None => cur1 end).
    set (m2 := match next with Some _ => m1 ++ [t] | None => [] end).
    assert (Heq : (match next with Some j => (j, length m1 + 1) | None => (cur1, length m1) end)
                  = (cur2, length m2)).
    { subst cur2 m2; destruct next; cbn; [now rewrite app_length|]; destruct Hnext as [-> _]; reflexivity. }
    rewrite Heq.
    assert (Hat2 : at_word cur2 m2).
    { subst cur2 m2; destruct next; [exact Hnext|]; destruct Hnext as [-> _]; exact Hat1. }
    assert (Hlong2 : longest_in (u ++ [t]) m2).
    { split; [|split].
      - subst m2; destruct next; [now apply suf_snoc|apply suf_nil].
      - eapply at_Sub; eauto.
      - intros v Hv HSv; destruct (suf_snoc_inv _ _ _ Hv) as [->|[v' [-> Hv']]]; [cbn; lia|].
        specialize (Hmax1 v' Hv' HSv); subst m2; destruct next.
        + rewrite !app_length; cbn; lia.
        + destruct Hnext as [-> Hnt]; exfalso; apply Hnt.
          eapply Sub_suf; [|exact HSv]; apply (proj2 (suf_snoc [] v' t t)); split; [reflexivity|apply suf_nil]. }
    destruct (idx_node h cur2 (proj1 Hat2)) as [nd2 Hnd2]; rewrite Hnd2.
    replace (S (length u)) with (length (u ++ [t])) by (rewrite app_length; cbn; lia).
    replace (u ++ t :: r) with ((u ++ [t]) ++ r) by now rewrite <- app_assoc.
    apply IH; auto.
    destruct best as [[bl e1] e2]; destruct Hb as [Hb1 Hb2].
    destruct (Nat.ltb_spec bl (length m2)) as [Hlt|Hge]; split.
    + right; exists m2; split; [reflexivity|]; split; [lia|]; split; [eapply at_first; eauto|].
      assert (Hold : forall v e, length v = length m2 -> Sub s v -> Occ (u ++ [t]) v e -> length u + 1 <= e).
      { intros v e Hl HS Ho; apply Occ_app_iff in Ho; destruct Ho as [Ho|[-> _]]; [|lia].
        assert (C : length v <= bl) by (apply Hb2; [exact HS|eexists; eauto]); lia. }
      split.
      * split.
        -- replace (length u + 1) with (S (length u)) by lia; apply Occ_new; apply Hlong2.
        -- intros e He; eapply (Hold m2); eauto; eapply at_Sub; eauto.
      * exact Hold.
    + intros v HS1 HS2; apply Sub_app_iff in HS2; destruct HS2 as [HS2|HS2].
      * specialize (Hb2 v HS1 HS2); lia.
      * destruct Hlong2 as [_ [_ K]]; now apply K.
    + destruct Hb1 as [Hb1|[w [W1 [W2 [W3 [W4 W5]]]]]]; [now left|right].
      exists w; split; [exact W1|]; split; [exact W2|]; split; [exact W3|].
      split; [now apply first_end_app|].
      intros v e Hl HS Ho; apply Occ_app_iff in Ho; destruct Ho as [Ho|[-> _]]; [eauto|].
      destruct W4 as [W4 _]; apply Occ_bound in W4; lia.
    + intros v HS1 HS2; apply Sub_app_iff in HS2; destruct HS2 as [HS2|HS2].
      * now apply Hb2.
      * destruct Hlong2 as [_ [_ K]]; specialize (K v HS2 HS1); lia.
Qed.

Lemma sa_find_lcs_ok b : exists pa pb l,
  sa_find_lcs h b = Some (pa, pb, l) /\ is_first_lcs s b pa pb l.
Proof.
  unfold sa_find_lcs.
  destruct (lcs_loop_ok b [] 0 [] (0, 0, 0)) as [[[bl e1] e2] [Hrun Hb]].
  - now apply at_root.
  - split; [apply suf_refl|]; split; [apply Sub_nil|].
    intros v Hv _; apply suf_length in Hv; exact Hv.
  - split; [now left|]; intros v _ Hv; apply Sub_length in Hv; exact Hv.
  - cbn [length] in Hrun; rewrite Hrun; cbn [app] in Hb; destruct Hb as [Hb1 Hb2].
    assert (Hmax : forall qa qb k, common_run s b qa qb k -> k <= bl).
    { intros qa qb k Hc; apply common_occ in Hc; destruct Hc as [w [<- [H1 H2]]].
      apply occurs_Occ in H1; apply occurs_Occ in H2; apply Hb2; eexists; eauto. }
    destruct Hb1 as [[-> [-> ->]]|[w [W1 [W2 [[F1 F2] [[G1 G2] W5]]]]]].
    + exists 0, 0, 0; split; [reflexivity|]; split; [split; [|exact Hmax]|].
      * split; [lia|]; split; [lia|reflexivity].
      * split; [auto|]; split; intros; lia.
    + pose proof (Occ_le _ _ _ F1); pose proof (Occ_le _ _ _ G1).
      unfold nsub; destruct (Nat.leb_spec bl e1); [|lia]; destruct (Nat.leb_spec bl e2); [|lia].
      exists (e1 - bl), (e2 - bl), bl; split; [reflexivity|].
      apply Occ_iff in F1; apply Occ_iff in G1; rewrite W1 in *.
      split; [split; [|exact Hmax]|split; [intros; lia|split]].
      * apply common_occ; exists w; split; [exact W1|]; tauto.
      * intros qa qb Hc; apply common_occ in Hc; destruct Hc as [v [Hv [J1 J2]]].
        apply occurs_Occ in J1; apply occurs_Occ in J2.
        assert (e2 <= qb + length v) by (eapply W5; eauto; eexists; eauto); lia.
      * intros qa [C1 [C2 C3]].
        assert (Hw : slice b (e2 - bl) bl = w) by (destruct G1 as [_ [_ G1]]; rewrite W1 in G1; exact G1).
        assert (Ho : occurs_at s w qa).
        { split; [rewrite W1; exact C1|]; rewrite W1, C3; exact Hw. }
        apply occurs_Occ in Ho; apply F2 in Ho; lia.
Qed.

(** ** all_suffixes *)
Lemma suf_app_both v w : suf (v ++ w) s -> Sub s v.
Proof.
  intros Hs; assert (Hx : Sub s (v ++ w)) by now apply Sub_of_suf.
  revert v Hx Hs; induction w as [|x w IH] using rev_ind; intros v Hx Hs.
  - now rewrite app_nil_r in Hx.
  - rewrite app_assoc in Hx; apply Sub_snoc in Hx.
    destruct Hx as [e He]; clear -He; revert v e He.
    induction w as [|x w IH] using rev_ind; intros v e He.
    + rewrite app_nil_r in He; eexists; eauto.
    + rewrite app_assoc in He; assert (Hs : Sub s (v ++ w)) by (eapply Sub_snoc; eexists; eauto).
      destruct Hs as [e' He']; eauto.
Qed.

Lemma prepend_all_ok (rec : nat -> option (list (list T))) (P : nat -> list T -> Prop) tr :
  NoDup (dkeys tr) ->
  (forall t j, In (t, j) tr -> exists l, rec j = Some l /\ NoDup l /\ forall w, In w l <-> P j w) ->
  exists l, prepend_all rec tr = Some l /\ NoDup l /\
    forall w, In w l <-> exists t j w', w = t :: w' /\ In (t, j) tr /\ P j w'.
Proof.
  induction tr as [|[t j] tr IH]; intros HN Hrec; cbn [prepend_all].
  - exists []; split; [reflexivity|]; split; [constructor|].
    intros w; split; [intros []|intros [t [j [w' [_ [[] _]]]]]].
  - destruct (Hrec t j (or_introl eq_refl)) as [l1 [-> [N1 L1]]].
    cbn in HN; inversion HN as [|? ? HN1 HN2]; subst.
    destruct (IH HN2) as [l2 [-> [N2 L2]]]; [intros t1 j1 Hin1; apply (Hrec t1); now right|].
    eexists; split; [reflexivity|]; split.
    + apply NoDup_app_intro; auto.
      * apply FinFun.Injective_map_NoDup; [intros a b Hab; congruence|exact N1].
      * intros w H1 H2; apply in_map_iff in H1; destruct H1 as [w1 [<- _]].
        apply L2 in H2; destruct H2 as [t' [j' [w' [Heq [Hin _]]]]]; injection Heq as -> ->.
        apply HN1; change t' with (fst (t', j')); now apply in_map.
    + intros w; rewrite in_app_iff, in_map_iff, L2; split.
      * intros [[w1 [<- H1]]|[t' [j' [w' [A [B C]]]]]].
        -- exists t, j, w1; split; [reflexivity|]; split; [now left|now apply L1].
        -- exists t', j', w'; split; [exact A|]; split; [now right|exact C].
      * intros [t' [j' [w' [-> [[Heq|B] C]]]]].
        -- injection Heq as <- <-; left; exists w'; split; [reflexivity|now apply L1].
        -- right; exists t', j', w'; auto.
Qed.

Lemma all_suffixes_from_ok fuel : forall i, i < n -> length s < fuel + length (W i) ->
  exists l, all_suffixes_from fuel h i = Some l /\ NoDup l /\
    forall w, In w l <-> suf (W i ++ w) s.
Proof.
  induction fuel as [|fuel IH]; intros i Hi Hf.
  { pose proof (a_len W s h HA i Hi); lia. }
  cbn [all_suffixes_from].
  destruct (idx_node h i Hi) as [nd Hnd]; rewrite Hnd.
  destruct (ai_node _ _ _ HA _ _ Hnd) as [K1 K2 K3 K4 K5 K6].
  destruct (prepend_all_ok (all_suffixes_from fuel h) (fun j w => suf (W j ++ w) s) (n_trans nd) K4)
    as [l [-> [HN HL]]].
  { intros t j Hin; apply In_dget in Hin; [|exact K4].
    pose proof (K6 t) as Kt; rewrite Hin in Kt; destruct Kt as [Kj [Ks _]].
    apply IH; [exact Kj|]; apply suf_length in Ks; rewrite app_length in Ks; cbn in Ks; lia. }
  eexists; split; [reflexivity|]; split.
  - destruct (n_term nd); cbn; [|exact HN]; constructor; [|exact HN].
    intros C; apply HL in C; destruct C as [? [? [? [? _]]]]; discriminate.
  - intros w; rewrite in_app_iff, HL.
    assert (Hstep : forall t j w', dget (n_trans nd) t = Some j -> suf (W j ++ w') s <-> suf (W i ++ t :: w') s).
    { intros t j w' Hd; pose proof (K6 t) as Kt; rewrite Hd in Kt; destruct Kt as [Kj [Ks Ke]].
      replace (W i ++ t :: w') with ((W i ++ [t]) ++ w') by now rewrite <- app_assoc.
      assert (G : forall v v', eqv s v v' -> suf (v ++ w') s -> suf (v' ++ w') s).
      { intros v v' He Hs.
        assert (He' : eqv s (v ++ w') (v' ++ w')).
        { clear Hs; induction w' as [|x w' IHw] using rev_ind; [now rewrite !app_nil_r|].
          rewrite !app_assoc; now apply eqv_snoc. }
        assert (Ho : Occ s (v ++ w') (length s)) by (eapply Occ_suf; [exact Hs|apply Occ_full]).
        apply He' in Ho; destruct Ho as [_ Ho]; now rewrite firstn_all in Ho. }
      split; apply G; [now apply eqv_sym|exact Ke]. }
    destruct w as [|t w'].
    + rewrite app_nil_r; rewrite <- (ai_term _ _ _ HA _ _ Hnd).
      destruct (n_term nd); cbn; split; auto.
      * intros [[]|[? [? [? [? _]]]]]; discriminate.
      * discriminate.
    + split.
      * intros [Hin|[t' [j [w1 [Heq [Hin Hs]]]]]].
        -- destruct (n_term nd); [destruct Hin as [Hin|[]]; discriminate|destruct Hin].
        -- injection Heq as <- <-; apply In_dget in Hin; [|exact K4]; apply (Hstep t j); auto.
      * intros Hs; right.
        pose proof (K6 t) as Kt; destruct (dget (n_trans nd) t) as [j|] eqn:Hd.
        -- exists t, j, w'; split; [reflexivity|]; split; [eapply dget_In; eauto|now apply (Hstep t j)].
        -- exfalso; apply Kt; apply (suf_app_both _ w'); now rewrite <- app_assoc.
Qed.
End Walk.

(** ** The suffixes of a sequence *)
Lemma suffixes_iff (s w : list T) : In w (suffixes s) <-> suf w s.
Proof.
  induction s as [|x s IH]; cbn.
  - split; [intros [<-|[]]; apply suf_refl|intros H; apply suf_nil_inv in H; auto].
  - rewrite IH; split.
    + intros [<-|H]; [apply suf_refl|]; change (x :: s) with ([x] ++ s); now apply suf_app.
    + intros H; apply suf_cons_inv in H; destruct H as [->|H]; auto.
Qed.
Lemma suffixes_NoDup (s : list T) : NoDup (suffixes s).
Proof.
  induction s as [|x s IH]; cbn; [repeat constructor; intros []|].
  constructor; [|exact IH]; intros C; apply suffixes_iff, suf_length in C; cbn in C; lia.
Qed.
Lemma all_suffixes_ok s : exists h l, build s = Some h /\ all_suffixes h = Some l /\
  Permutation l (suffixes s).
Proof.
  destruct (build_ok s) as [W [h [HB [HA HS]]]]; exists h.
  destruct (ai_root _ _ _ HA) as [H0 HW0].
  destruct (all_suffixes_from_ok W s h HA (length h) 0 H0) as [l [H1 [H2 H3]]]; [lia|].
  exists l; split; [exact HB|]; split; [exact H1|].
  apply NoDup_Permutation; auto using suffixes_NoDup.
  intros w; rewrite H3, HW0, suffixes_iff; reflexivity.
Qed.

(** ** Public statements *)
Theorem find_lcs_ok (a b : list T) : exists pa pb l,
  find_lcs a b = Some (pa, pb, l) /\ is_first_lcs a b pa pb l.
Proof.
  destruct (build_ok a) as [W [h [HB [HA _]]]]; unfold find_lcs; rewrite HB.
  eapply sa_find_lcs_ok; eauto.
Qed.
Theorem find_substring_ok (s w : list T) : exists ps,
  find_substring s w = Some ps /\ strictly_increasing ps /\ forall p, In p ps <-> occurs_at s w p.
Proof.
  destruct (build_ok s) as [W [h [HB [HA _]]]]; unfold find_substring; rewrite HB.
  eapply find_substring_all_ok; eauto.
Qed.
Theorem find_first_ok (s w : list T) : exists h, build s = Some h /\
  ((exists p, sa_find_substring h w = Some (Some p) /\ occurs_at s w p /\
             forall q, occurs_at s w q -> p <= q) \/
   (sa_find_substring h w = Some None /\ forall q, ~ occurs_at s w q)).
Proof.
  destruct (build_ok s) as [W [h [HB [HA _]]]]; exists h; split; [exact HB|].
  eapply sa_find_substring_ok; eauto.
Qed.
End Lcs.

Section Restated.
Context {T : Type} {E : Teq T} {O : TeqOk T}.
Theorem find_lcs_longest (a b : list T) : exists pa pb l,
  find_lcs a b = Some (pa, pb, l) /\
  pa + l <= length a /\ pb + l <= length b /\
  slice a pa l = slice b pb l /\
  (forall qa qb k, qa + k <= length a -> qb + k <= length b ->
     slice a qa k = slice b qb k -> k <= l).
Proof.
  destruct (find_lcs_ok a b) as [pa [pb [l [H [[[H1 [H2 H3]] H4] _]]]]].
  exists pa, pb, l; split; [exact H|]; split; [exact H1|]; split; [exact H2|]; split; [exact H3|].
  intros qa qb k K1 K2 K3; apply (H4 qa qb); repeat split; assumption.
Qed.
Theorem find_lcs_first (a b : list T) : exists pa pb l,
  find_lcs a b = Some (pa, pb, l) /\
  (l = 0 -> pa = 0 /\ pb = 0) /\
  (forall qa qb, qa + l <= length a -> qb + l <= length b ->
     slice a qa l = slice b qb l -> pb <= qb) /\
  (forall qa, qa + l <= length a -> slice a qa l = slice b pb l -> pa <= qa).
Proof.
  destruct (find_lcs_ok a b) as [pa [pb [l [H [[[H1 [H2 H3]] H4] [H5 [H6 H7]]]]]]].
  exists pa, pb, l; split; [exact H|]; split; [exact H5|]; split.
  - intros qa qb K1 K2 K3; apply (H6 qa); repeat split; assumption.
  - intros qa K1 K2; apply H7; repeat split; assumption.
Qed.
Theorem find_lcs_iff (a b : list T) pa pb l :
  is_first_lcs a b pa pb l <-> find_lcs a b = Some (pa, pb, l).
Proof.
  destruct (find_lcs_ok a b) as [pa' [pb' [l' [H HL]]]]; split.
  - intros HL'; destruct (is_first_lcs_unique _ _ _ _ _ _ _ _ HL HL') as [<- [<- <-]]; exact H.
  - intros H'; rewrite H in H'; injection H' as <- <- <-; exact HL.
Qed.
End Restated.
