(** Searching takes time in proportion to what is searched for and found. *)
From Verif Require Import Base SpecSeq Strings StringsExt Automaton AutomatonInv AutomatonProofs AutomatonLcs
  AutomatonCost AutomatonCostProofs Multi MultiProofs SearchCost.

Section Search.
Context {T : Type} {E : Teq T} {O : TeqOk T}.
Implicit Types (s w u : list T) (h : heap T) (W : nat -> list T).

(** ** Erasing the counts *)
Lemma find_match_erase h w : forall cur, option_map fst (find_match_node_n h cur w) = find_match_node h cur w.
Proof.
  induction w as [|t w IH]; intros cur; cbn [find_match_node_n find_match_node]; [reflexivity|].
  destruct (nth_error h cur) as [nd|]; [|reflexivity]. destruct (dget (n_trans nd) t) as [j|]; [|reflexivity].
  rewrite <- IH. destruct (find_match_node_n h j w) as [[r k]|]; reflexivity.
Qed.
Lemma find_match_count h w : forall cur r k, find_match_node_n h cur w = Some (r, k) ->
  k <= length w /\ (r <> None -> k = length w).
Proof.
  induction w as [|t w IH]; intros cur r k; cbn [find_match_node_n length]; [intros Q; injection Q as <- <-; auto|].
  destruct (nth_error h cur) as [nd|]; [|discriminate]. destruct (dget (n_trans nd) t) as [j|].
  - destruct (find_match_node_n h j w) as [[r' k']|] eqn:F; [|discriminate]. intros Q; injection Q as <- <-.
    destruct (IH _ _ _ F) as [A B]. split; [lia|]. intros N. rewrite B; auto.
  - intros Q; injection Q as <- <-. split; [lia|]. contradiction.
Qed.
Lemma follow_erase h fuel : forall todo all,
  follow_reverse_links fuel h todo all = option_map fst (follow_reverse_links_n fuel h todo all).
Proof.
  induction fuel as [|fuel IH]; intros [|c todo] all; cbn [follow_reverse_links follow_reverse_links_n]; try reflexivity.
  destruct (nth_error h c) as [nd|]; [|reflexivity]. rewrite IH.
  destruct (follow_reverse_links_n fuel h (rev (n_rev nd) ++ todo) (all ++ [c])) as [[l k]|]; reflexivity.
Qed.
Lemma follow_count h fuel : forall todo all l k, follow_reverse_links_n fuel h todo all = Some (l, k) ->
  length l = length all + k.
Proof.
  induction fuel as [|fuel IH]; intros [|c todo] all l k; cbn [follow_reverse_links_n]; try discriminate;
    try (intros Q; injection Q as <- <-; lia).
  destruct (nth_error h c) as [nd|]; [|discriminate].
  destruct (follow_reverse_links_n fuel h (rev (n_rev nd) ++ todo) (all ++ [c])) as [[l' k']|] eqn:F; [|discriminate].
  intros Q; injection Q as <- <-. apply IH in F. rewrite F, app_length. cbn. lia.
Qed.
Lemma positions_erase h cur len : option_map fst (get_all_start_positions_n h cur len) = get_all_start_positions h cur len.
Proof.
  unfold get_all_start_positions_n, get_all_start_positions. rewrite follow_erase.
  destruct (follow_reverse_links_n (length h) h [cur] []) as [[l k]|]; [|reflexivity]. cbn [option_map fst].
  destruct (start_positions h l len); reflexivity.
Qed.
Lemma find_substring_erase h w : option_map fst (find_substring_all_n h w) = find_substring_all h w.
Proof.
  unfold find_substring_all_n, find_substring_all. rewrite <- find_match_erase.
  destruct (find_match_node_n h 0 w) as [[[v|] k]|]; try reflexivity. cbn [option_map fst]. rewrite <- positions_erase.
  destruct (get_all_start_positions_n h v (length w)) as [[ps k']|]; reflexivity.
Qed.

(** ** How many left-maximal words end at given places *)
Lemma least (P : nat -> Prop) : (forall x, {P x} + {~ P x}) -> forall x, P x -> exists y, P y /\ forall z, P z -> y <= z.
Proof.
  intros D x. induction x as [x IH] using lt_wf_ind. intros H.
  destruct (bounded_dec (fun k => k < x -> ~ P k) x) as [N|[k [Hk N]]].
  - intros k. destruct (lt_dec k x), (D k); try (left; tauto); right; tauto.
  - exists x. split; [exact H|]. intros z Hz. destruct (le_lt_dec x z); [assumption|]. exfalso. apply (N z); auto; lia.
  - destruct (lt_dec k x); [|tauto]. destruct (D k); [|tauto]. now apply (IH k).
Qed.
(** the first place where another token stands before w than at its first place *)
Definition second s w x : Prop := exists e c, first_end s w e /\ Occ s (c :: w) e /\
  Occ s w x /\ ~ Occ s (c :: w) x /\ forall y, Occ s w y -> ~ Occ s (c :: w) y -> x <= y.
Lemma canon_cases s w e : Canon s w -> first_end s w e -> w = firstn e s \/ exists x, second s w x.
Proof.
  intros [_ C] F. assert (B := proj1 F). destruct B as [B S1].
  destruct (le_lt_dec e (length w)) as [L|L].
  - left. apply suf_len_eq; [exact S1|]. rewrite firstn_length_le; lia.
  - right. destruct (suf_grow _ _ S1) as [c S2]; [rewrite firstn_length_le; lia|].
    assert (N : ~ eqv s (c :: w) w).
    { intros N. assert (K : c :: w = w) by (apply C; [exists [c]; reflexivity|exact N]).
      apply (f_equal (@length T)) in K. cbn in K. lia. }
    destruct (bounded_dec (fun x => ~ (Occ s w x /\ ~ Occ s (c :: w) x)) (length s)) as [H|[x [_ H]]].
    + intros x. destruct (Occ_dec s w x), (Occ_dec s (c :: w) x); try (left; tauto); right; tauto.
    + exfalso. apply N. intros x. split; [apply Occ_suf; exists [c]; reflexivity|]. intros Ho.
      destruct (Occ_dec s (c :: w) x); [assumption|]. exfalso. apply (H x); [eapply Occ_bound; eauto|tauto].
    + destruct (least (fun x => Occ s w x /\ ~ Occ s (c :: w) x)) with (x := x) as [y [[Y1 Y2] Y3]].
      * intros y. destruct (Occ_dec s w y), (Occ_dec s (c :: w) y); try (left; tauto); right; tauto.
      * destruct (Occ_dec s w x), (Occ_dec s (c :: w) x); tauto.
      * exists y, e, c. split; [exact F|]. split; [split; assumption|]. split; [exact Y1|]. split; [exact Y2|]. intros; auto.
Qed.
Lemma second_short s w1 w2 x : second s w1 x -> second s w2 x -> length w1 < length w2 -> False.
Proof.
  intros (e1 & c1 & F1 & A1 & B1 & N1 & M1) (e2 & c2 & F2 & A2 & B2 & N2 & M2) L.
  assert (S1 : suf w1 w2) by (eapply Occ_comparable; eauto; lia).
  destruct (suf_grow _ _ S1 L) as [d S2].
  assert (D : d <> c1) by (intros ->; apply N1; eapply Occ_suf; eauto).
  assert (X1 : Occ s (d :: w1) e2) by (eapply Occ_suf; [exact S2|exact (proj1 F2)]).
  assert (X2 : ~ Occ s (c1 :: w1) e2).
  { intros K. assert (K2 : suf (d :: w1) (c1 :: w1)) by (eapply Occ_comparable; eauto).
    apply suf_len_eq in K2; [|reflexivity]. congruence. }
  assert (x <= e2) by (apply M1; [eapply Occ_suf; [exists [d]; reflexivity|exact X1]|exact X2]).
  assert (e2 <= x) by (apply F2; exact B2). assert (x = e2) as -> by lia.
  apply N2. exact A2.
Qed.
Lemma second_inj s w1 w2 x : second s w1 x -> second s w2 x -> w1 = w2.
Proof.
  intros H1 H2. destruct (lt_eq_lt_dec (length w1) (length w2)) as [[L|L]|L].
  - exfalso. eapply second_short; [exact H1|exact H2|exact L].
  - destruct H1 as (? & ? & _ & _ & [_ A] & _), H2 as (? & ? & _ & _ & [_ B] & _). eapply suf_same_len; eauto.
  - exfalso. eapply second_short; [exact H2|exact H1|exact L].
Qed.

(** ** The number of nodes visited *)
Lemma visited_bound W s h u ids ps : AInv W s h -> NoDup ids ->
  (forall i, In i ids -> i < length h /\ suf u (W i)) ->
  strictly_increasing ps -> (forall p, In p ps <-> Occ s u (p + length u)) -> ps <> [] ->
  length ids <= 2 * length ps - 1.
Proof.
  intros HA ND HI SI HP NE. destruct ps as [|p0 ps]; [congruence|]. clear NE.
  set (L := map (@inl nat nat) (p0 :: ps) ++ map (@inr nat nat) ps).
  set (R := fun (i : nat) (y : nat + nat) => match y with
             | inl p => W i = firstn (p + length u) s
             | inr p => second s (W i) (p + length u)
             end).
  assert (LL : length L = 2 * length (p0 :: ps) - 1) by (unfold L; rewrite app_length, !map_length; cbn [length]; lia).
  rewrite <- LL. apply (pigeon R).
  - exact ND.
  - intros i Hi. destruct (HI i Hi) as [Hn Hs]. pose proof (a_canon W s h HA i Hn) as C.
    destruct (first_end_exists s (W i) (proj1 C)) as [e F].
    assert (IN : forall x, Occ s (W i) x -> exists p, In p (p0 :: ps) /\ x = p + length u).
    { intros x Hx. assert (Hu : Occ s u x) by (eapply Occ_suf; eauto). pose proof (Occ_le _ _ _ Hu).
      exists (x - length u). split; [|lia]. apply HP. now replace (x - length u + length u) with x by lia. }
    destruct (canon_cases s (W i) e C F) as [P|[x S2]].
    + destruct (IN e (proj1 F)) as (p & Hp & ->). exists (inl p). split; [|exact P].
      apply in_or_app. left. now apply in_map.
    + assert (S3 := S2). destruct S3 as (e' & c & F' & A & B & N & _).
      destruct (IN x B) as (p & Hp & ->). exists (inr p). split; [|exact S2].
      apply in_or_app. right. apply in_map. destruct Hp as [<-|Hp]; [exfalso|exact Hp].
      destruct (IN e' (proj1 F')) as (q & Hq & ->). assert (q + length u <= p0 + length u) by (apply F'; exact B).
      destruct Hq as [<-|Hq]; [contradiction|]. apply In_nth_error in Hq as [j Hj].
      specialize (SI 0 (S j) p0 q ltac:(lia) eq_refl Hj). lia.
  - intros i j y Hi Hj. destruct (HI i Hi) as [Hi' _], (HI j Hj) as [Hj' _]. destruct y as [p|p]; cbn [R].
    + intros A B. apply (ai_inj _ _ _ HA); auto. congruence.
    + intros A B. apply (ai_inj _ _ _ HA); auto. eapply second_inj; eauto.
Qed.
Lemma visited_least W s h u ids ps : AInv W s h ->
  (forall i, In i ids <-> i < length h /\ suf u (W i)) ->
  strictly_increasing ps -> (forall p, In p ps <-> Occ s u (p + length u)) ->
  length ps <= length ids.
Proof.
  intros HA HI SI HP. apply (pigeon (fun p i => W i = firstn (p + length u) s)).
  - clear - SI. induction ps as [|p ps IH]; [constructor|]. constructor.
    + intros K. apply In_nth_error in K as [j Hj]. specialize (SI 0 (S j) p p ltac:(lia) eq_refl Hj). lia.
    + apply IH. intros i j x y L A B. apply (SI (S i) (S j)); auto; lia.
  - intros p Hp. apply HP in Hp. assert (B := Occ_bound _ _ _ Hp).
    destruct (ai_surj _ _ _ HA _ (Canon_prefix s _ B)) as (i & Hi & HW). exists i. split; [|exact HW].
    apply HI. split; [exact Hi|]. rewrite HW. exact (proj2 Hp).
  - intros p q i Hp Hq A B. apply HP in Hp, Hq. apply Occ_bound in Hp, Hq. rewrite A in B.
    apply (f_equal (@length T)) in B. rewrite !firstn_length_le in B by lia. lia.
Qed.
(** [_get_all_start_positions] at the node where w is read *)
Lemma positions_count W s h v w : AInv W s h -> at_word W s h v w ->
  exists ps k, get_all_start_positions_n h v (length w) = Some (ps, k) /\
    strictly_increasing ps /\ (forall p, In p ps <-> occurs_at s w p) /\ length ps <= k <= 2 * length ps - 1.
Proof.
  intros HA Hv. assert (A := Hv). destruct A as (Hn & Hs & He).
  assert (HF : find_substring_all h w = get_all_start_positions h v (length w)).
  { unfold find_substring_all. destruct (find_match_ok W s h HA w 0 [] (at_root W s h HA)) as [[v' [-> Hv']]|[_ N]].
    - cbn [app] in Hv'. replace v' with v; [reflexivity|]. destruct Hv' as (Hn' & Hs' & He').
      apply (ai_inj _ _ _ HA); auto. apply (Canon_uniq s); [now apply (a_canon W s h HA)|now apply (a_canon W s h HA)|].
      eapply eqv_trans; [apply eqv_sym, He|exact He'].
    - exfalso. apply N. cbn [app]. eapply at_Sub; eauto. }
  destruct (find_substring_all_ok W s h w HA) as (ps & FA & SI & HP). rewrite HF in FA.
  rewrite <- positions_erase in FA. destruct (get_all_start_positions_n h v (length w)) as [[ps' k]|] eqn:G; [|discriminate].
  cbn in FA. injection FA as ->. exists ps, k. split; [reflexivity|]. split; [exact SI|]. split; [exact HP|].
  unfold get_all_start_positions_n in G.
  destruct (follow_ok W s h HA v Hn (length h) [v] []) as [ids [FO [ND Hids]]].
  - repeat constructor; intros [].
  - intros x [<-|[]]; split; [exact Hn|]; split; [apply suf_refl|now left].
  - now left.
  - intros x nx y _ _ [].
  - cbn; lia.
  - rewrite follow_erase in FO. destruct (follow_reverse_links_n (length h) h [v] []) as [[ids' k']|] eqn:FN; [|discriminate].
    cbn in FO. injection FO as ->. destruct (start_positions h ids (length w)); [|discriminate]. injection G as _ ->.
    pose proof (follow_count _ _ _ _ _ _ FN) as K. cbn in K. rewrite <- K.
    assert (HP' : forall p, In p ps <-> Occ s w (p + length w)) by (intros p; rewrite HP; apply occurs_Occ).
    assert (SU : forall i, In i ids -> i < length h /\ suf w (W i)).
    { intros i Hi. apply Hids in Hi as [? ?]. split; [assumption|]. eapply suf_trans; eauto. }
    assert (SU' : forall i, i < length h -> suf w (W i) -> In i ids).
    { intros i Hi Hw. apply Hids. split; [exact Hi|]. pose proof (a_canon W s h HA i Hi) as C.
      destruct (proj1 C) as [e Oe]. assert (Ow : Occ s w e) by (eapply Occ_suf; eauto). apply He in Ow.
      destruct (le_lt_dec (length (W v)) (length (W i))) as [L|L]; [eapply Occ_comparable; eauto|].
      (* W i lies between w and W v *)
      assert (B : suf (W i) (W v)) by (eapply Occ_comparable; eauto; lia).
      replace (W i) with (W v); [apply suf_refl|]. apply (proj2 C); [exact B|].
      apply eqv_sym. eapply eqv_between; eauto. }
    split.
    + apply (visited_least W s h w); auto. intros i. split; [apply SU|]. intros [A B]. auto.
    + apply (visited_bound W s h w); auto. intros ->. destruct (at_Sub W s h HA v w Hv) as [e Oe].
      assert (K2 : In (e - length w) []); [|destruct K2]. apply HP'. pose proof (Occ_le _ _ _ Oe).
      now replace (e - length w + length w) with e by lia.
Qed.
Theorem find_substring_cost s w : exists h k0 ps k,
  build_n s = Some (h, k0) /\ find_substring_all_n h w = Some (ps, k) /\ find_substring s w = Some ps /\
  length s + 1 <= k0 <= 3 * length s + 1 /\
  (ps = [] -> k <= length w) /\ (ps <> [] -> length w + length ps <= k <= length w + 2 * length ps - 1).
Proof.
  destruct (build_linear s) as (h & k0 & B & B' & _ & _ & _ & K0).
  destruct (build_ok s) as [W [h' [HB [HA _]]]]. assert (h' = h) as -> by congruence.
  pose proof (find_match_erase h w 0) as FE. pose proof (find_substring_erase h w) as FS. 
  destruct (find_match_ok W s h HA w 0 [] (at_root W s h HA)) as [[v [F Hv]]|[F N]]; rewrite F in FE;
    destruct (find_match_node_n h 0 w) as [[r k]|] eqn:FN; try discriminate; cbn in FE; injection FE as ->;
    destruct (find_match_count h w _ _ _ FN) as [C1 C2].
  - destruct (positions_count W s h v w HA Hv) as (ps & k' & P & SI & HP & K). exists h, k0, ps, (k + k').
    assert (G : find_substring_all_n h w = Some (ps, k + k')) by (unfold find_substring_all_n; now rewrite FN, P).
    rewrite G in FS. split; [exact B|]. split; [exact G|]. split; [unfold find_substring; rewrite B'; symmetry; exact FS|]. split; [exact K0|].
    rewrite C2 by discriminate. split; [intros ->; cbn in K; lia|]. intros NE. destruct ps; [congruence|]. cbn [length] in *. lia.
  - exists h, k0, [], k. assert (G : find_substring_all_n h w = Some ([], k)) by (unfold find_substring_all_n; now rewrite FN).
    rewrite G in FS. split; [exact B|]. split; [exact G|]. split; [unfold find_substring; rewrite B'; symmetry; exact FS|].
    split; [exact K0|]. split; [auto|contradiction].
Qed.
End Search.
