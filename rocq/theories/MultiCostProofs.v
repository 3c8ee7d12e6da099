(** The steps of find_lcs_multiple. *)
From Verif Require Import Base SpecSeq Strings StringsExt Automaton AutomatonInv AutomatonProofs AutomatonLcs
  AutomatonCost AutomatonCostProofs Multi MultiProofs SearchCost SearchCostProofs.

Section Erase.
Context {U : Type} {E : Teq U} (mksep : nat -> U) (issep : U -> bool).
Lemma multi_loop_erase h count fuel : forall m stack mx b,
  option_map fst (multi_loop_n issep fuel h count m stack mx b) = multi_loop issep fuel h count m stack mx b.
Proof.
  induction fuel as [|fuel IH]; intros m [|top rest] mx b; cbn [multi_loop_n multi_loop]; try reflexivity. cbv zeta.
  assert (N : forall m stack mx b, option_map fst match multi_loop_n issep fuel h count m stack mx b with
                Some (r, k) => Some (r, S k) | None => None end = multi_loop issep fuel h count m stack mx b).
  { intros m0 s0 x0 b0. rewrite <- IH. destruct (multi_loop_n issep fuel h count m0 s0 x0 b0) as [[r k]|]; reflexivity. }
  destruct (dmem m top); [apply N|]. destruct (nth_error h top) as [nd|]; [|reflexivity].
  destruct (forallb (dmem m) (dvalues (n_trans nd))); [|apply N].
  destruct (shared_of issep m [] (n_trans nd)) as [sh|]; [|reflexivity].
  destruct ((length sh =? count) && (mx <? n_len nd)); apply N.
Qed.
Lemma multi_loop_fuel h count fuel : forall m stack mx b r k,
  multi_loop_n issep fuel h count m stack mx b = Some (r, k) -> k <= fuel.
Proof.
  induction fuel as [|fuel IH]; intros m [|top rest] mx b r k; cbn [multi_loop_n]; try discriminate;
    try (intros Q; injection Q as <- <-; lia). cbv zeta.
  assert (N : forall m stack mx b, match multi_loop_n issep fuel h count m stack mx b with
                Some (r, k) => Some (r, S k) | None => None end = Some (r, k) -> k <= S fuel).
  { intros m0 s0 x0 b0. destruct (multi_loop_n issep fuel h count m0 s0 x0 b0) as [[r' k']|] eqn:F; [|discriminate].
    intros Q; injection Q as <- <-. apply IH in F. lia. }
  destruct (dmem m top); [apply N|]. destruct (nth_error h top) as [nd|]; [|discriminate].
  destruct (forallb (dmem m) (dvalues (n_trans nd))); [|apply N].
  destruct (shared_of issep m [] (n_trans nd)) as [sh|]; [|discriminate].
  destruct ((length sh =? count) && (mx <? n_len nd)); apply N.
Qed.
Lemma find_n_erase f l : fst (find_n f l) = find f l.
Proof. induction l as [|x l IH]; [reflexivity|]. cbn [find_n find]. destruct (f x); [reflexivity|]. now destruct (find_n f l). Qed.
Lemma find_n_le f l : snd (find_n f l) <= length l.
Proof. induction l as [|x l IH]; [cbn; lia|]. cbn [find_n length]. destruct (f x); [cbn; lia|]. destruct (find_n f l). cbn in *. lia. Qed.
Lemma offsets_erase ps ss : forall b, fst (get_string_offsets_n b ps ss) = @get_string_offsets U b ps ss.
Proof.
  induction ss as [|s ss IH]; intros b; [reflexivity|]. cbn [get_string_offsets_n get_string_offsets].
  rewrite <- IH, <- find_n_erase. destruct (find_n _ ps) as [[p|] k], (get_string_offsets_n _ ps ss) as [l k']; reflexivity.
Qed.
Lemma offsets_le ps ss : forall b, snd (@get_string_offsets_n U b ps ss) <= length ss * length ps.
Proof.
  induction ss as [|s ss IH]; intros b; [cbn; lia|]. cbn [get_string_offsets_n length].
  pose proof (find_n_le (fun p => b <=? p) ps) as F. specialize (IH (b + (length s + 1))).
  destruct (find_n _ ps) as [r k], (get_string_offsets_n _ ps ss) as [l k']. cbn [snd] in *. lia.
Qed.
Lemma offsets_ge ps ss : ps <> [] -> forall b, length ss <= snd (@get_string_offsets_n U b ps ss).
Proof.
  intros NE. induction ss as [|s ss IH]; intros b; [cbn; lia|]. cbn [get_string_offsets_n length].
  specialize (IH (b + (length s + 1))). destruct ps as [|p ps]; [congruence|]. cbn [find_n].
  destruct (b <=? p); [|destruct (find_n _ ps)]; destruct (get_string_offsets_n _ _ ss) as [l k']; cbn [snd] in *; lia.
Qed.
Theorem multiple_erase ss : option_map fst (find_lcs_multiple_n mksep issep ss) = find_lcs_multiple mksep issep ss.
Proof.
  unfold find_lcs_multiple_n, find_lcs_multiple. rewrite <- build_erase.
  destruct (build_n (concatenate_strings mksep ss)) as [[h k0]|]; [|reflexivity]. cbn [option_map fst].
  destruct ss as [|s ss]; [reflexivity|]. rewrite <- multi_loop_erase.
  destruct (multi_loop_n issep _ h _ [] [0] 0 0) as [[[l b] k1]|]; [|reflexivity]. cbn [option_map fst].
  rewrite <- positions_erase. destruct (get_all_start_positions_n h b l) as [[raw k2]|]; [|reflexivity]. cbn [option_map fst].
  rewrite <- offsets_erase. destruct (get_string_offsets_n 0 raw (s :: ss)) as [ps k3]. reflexivity.
Qed.
End Erase.

Section Closed.
Context {U : Type} {E : Teq U} {O : TeqOk U} (issep : U -> bool) (h : heap U).
Definition closed (m : dict nat (list U)) : Prop := forall i nd t j,
  dmem m i = true -> nth_error h i = Some nd -> dget (n_trans nd) t = Some j -> dmem m j = true.
Lemma loop_closed count fuel : forall m stack mx b r k,
  multi_loop_n issep fuel h count m stack mx b = Some (r, k) -> closed m ->
  exists m', closed m' /\ (forall i, dmem m i = true -> dmem m' i = true) /\
    (forall i, In i stack -> dmem m' i = true) /\ length (dkeys m') <= length (dkeys m) + k.
Proof.
  induction fuel as [|fuel IH]; intros m stack mx b r k H CL.
  { destruct stack; cbn in H; [|discriminate]. injection H as <- <-. exists m.
    split; [exact CL|]. split; [auto|]. split; [intros ? []|lia]. }
  destruct stack as [|top rest]; cbn [multi_loop_n] in H.
  { injection H as <- <-. exists m. split; [exact CL|]. split; [auto|]. split; [intros ? []|lia]. }
  cbv zeta in H.
  assert (N : forall m1 stack1 mx1 b1, match multi_loop_n issep fuel h count m1 stack1 mx1 b1 with
                Some (r, k) => Some (r, S k) | None => None end = Some (r, k) -> closed m1 ->
              (forall i, dmem m i = true -> dmem m1 i = true) ->
              (forall i, In i (top :: rest) -> dmem m1 i = true \/ In i stack1) ->
              length (dkeys m1) <= S (length (dkeys m)) ->
     exists m', closed m' /\ (forall i, dmem m i = true -> dmem m' i = true) /\
       (forall i, In i (top :: rest) -> dmem m' i = true) /\ length (dkeys m') <= length (dkeys m) + k).
  { intros m1 s1 x1 b1 F C1 I1 I2 L. destruct (multi_loop_n issep fuel h count m1 s1 x1 b1) as [[r' k']|] eqn:G; [|discriminate].
    injection F as <- <-. destruct (IH _ _ _ _ _ _ G C1) as (m' & A & B & C & D). exists m'.
    split; [exact A|]. split; [auto|]. split; [|lia]. intros i Hi. destruct (I2 i Hi); auto. }
  destruct (dmem m top) eqn:MT.
  { eapply N; [exact H|exact CL|auto| |lia]. intros i [<-|Hi]; auto. }
  destruct (nth_error h top) as [nd|] eqn:ND; [|discriminate].
  destruct (forallb (dmem m) (dvalues (n_trans nd))) eqn:FA.
  - destruct (shared_of issep m [] (n_trans nd)) as [sh|]; [|discriminate].
    assert (DM : forall i, dmem (dset m top sh) i = true <-> i = top \/ dmem m i = true).
    { intros i. rewrite !dmem_In, dkeys_dset, MT, in_app_iff. cbn. intuition. }
    assert (C1 : closed (dset m top sh)).
    { intros i ni t j Hi Hn Ht. apply DM. right. apply DM in Hi as [->|Hi].
      - rewrite ND in Hn. injection Hn as <-. rewrite forallb_forall in FA. apply FA. apply dget_In in Ht. now apply (in_map snd) in Ht.
      - eapply CL; eauto. }
    assert (L : length (dkeys (dset m top sh)) <= S (length (dkeys m))) by (rewrite dkeys_dset, MT, app_length; cbn; lia).
    assert (I2 : forall i, In i (top :: rest) -> dmem (dset m top sh) i = true \/ In i rest).
    { intros i [<-|Hi]; [left; apply DM; now left|now right]. }
    destruct ((length sh =? count) && (mx <? n_len nd)); (eapply N; [exact H|exact C1| |exact I2|exact L]);
      intros i Hi; apply DM; now right.
  - eapply N; [exact H|exact CL|auto| |lia]. intros i Hi. right. apply in_or_app. now right.
Qed.
Lemma closed_all W s m : AInv W s h -> closed m -> dmem m 0 = true -> length h <= length (dkeys m).
Proof.
  intros HA CL M0. rewrite <- (seq_length (length h) 0). apply NoDup_incl_length; [apply seq_NoDup|].
  intros i Hi. apply in_seq in Hi. apply dmem_In.
  assert (R : forall w i j, dmem m i = true -> find_match_node h i w = Some (Some j) -> dmem m j = true).
  { induction w as [|t w IH]; intros a j Ha Hf; cbn [find_match_node] in Hf; [congruence|].
    destruct (nth_error h a) as [nd|] eqn:Hnd; [|discriminate].
    destruct (dget (n_trans nd) t) as [j'|] eqn:Hd; [|discriminate]. eapply IH; [|exact Hf]. eapply CL; eauto. }
  destruct (find_match_ok W s h HA (W i) 0 [] (at_root W s h HA)) as [[j [Hj (Hjn & Hs & He)]]|[_ Hn]]; cbn [app] in *.
  - assert (j = i) as ->; [|eapply R; eauto]. apply (ai_inj _ _ _ HA); [exact Hjn|lia|].
    apply (Canon_uniq s); [now apply (a_canon W s h HA)|apply (a_canon W s h HA); lia|now apply eqv_sym].
  - exfalso. apply Hn. apply (a_canon W s h HA i). lia.
Qed.
End Closed.

Section Multi.
Context {T : Type} {E : Teq T} {O : TeqOk T}.
(** the number of tokens and separators *)
Definition total (ss : list (list T)) : nat := list_sum (map (fun s => length s + 1) ss).
Lemma cat_length ss : forall i, length (concat_from Sep i (map (map (@Tok T)) ss)) = total ss.
Proof.
  induction ss as [|s ss IH]; intros i; [reflexivity|]. cbn [map concat_from]. rewrite app_length. cbn [length]. rewrite IH, map_length.
  unfold total, list_sum. cbn [map fold_right]. lia.
Qed.
Lemma inc_NoDup ps : strictly_increasing ps -> NoDup ps.
Proof.
  intros SI. induction ps as [|p ps IH]; [constructor|]. constructor.
  - intros K. apply In_nth_error in K as [j Hj]. specialize (SI 0 (S j) p p ltac:(lia) eq_refl Hj). lia.
  - apply IH. intros i j x y L A B. apply (SI (S i) (S j)); auto; lia.
Qed.
Lemma multi_steps ss : ss <> [] -> exists ps w k0 k1 k2 k3 raw,
  find_lcs_multiple_n Sep is_Sep (map (map (@Tok T)) ss) = Some (ps, Some (length w), (k0, k1, k2, k3)) /\
  total ss + 1 <= k0 <= 3 * total ss + 1 /\ total ss + 1 <= k1 <= 7 * total ss + 4 /\
  length raw <= k2 <= 2 * length raw - 1 /\ raw <> [] /\ length raw <= total ss + 1 /\
  strictly_increasing raw /\ (forall p, In p raw <-> occurs_at (concat_from Sep 0 (map (map Tok) ss)) (map Tok w) p) /\
  k3 = snd (get_string_offsets_n 0 raw (map (map Tok) ss)).
Proof.
  intros Hne. unfold find_lcs_multiple_n, concatenate_strings.
  set (cat := concat_from Sep 0 (map (map Tok) ss)).
  destruct (build_linear cat) as (h & k0 & HBn & HB & S1 & _ & TC & K0).
  destruct (build_ok cat) as [W [h' [HB' [HA _]]]]. assert (h' = h) as -> by congruence. rewrite HBn.
  assert (LC : length cat = total ss) by apply cat_length. rewrite LC in *.
  assert (Hm : forall (A : Type) (a b : A), match map (map (@Tok T)) ss with [] => a | _ :: _ => b end = b).
  { intros; destruct ss; [contradiction|reflexivity]. }
  rewrite Hm, map_length.
  destruct (loop_ok ss W h HA) as [m [mx [best [HL [HG H0]]]]].
  rewrite <- multi_loop_erase in HL.
  destruct (multi_loop_n is_Sep (2 + (2 * length h + trans_count h)) h (length ss) [] [0] 0 0) as [[r k1]|] eqn:ML; [|discriminate].
  cbn in HL. injection HL as ->.
  pose proof (multi_loop_fuel _ _ _ _ _ _ _ _ _ _ ML) as F1.
  destruct (loop_closed _ _ _ _ _ _ _ _ _ _ ML) as (m' & CL & _ & C0 & LK); [intros ? ? ? ? Q; discriminate|].
  pose proof (closed_all h W cat m' HA CL (C0 0 (or_introl eq_refl))) as LH. cbn in LK.
  destruct (g_best _ _ _ _ _ _ HG) as [Hbn [Hmx Hbest]].
  assert (Hw : exists w, W best = map Tok w).
  { destruct Hbest as [->|HF]; [|eapply full_tokens; eauto]. exists []; apply (ai_root _ _ _ HA). }
  destruct Hw as [w HWw].
  assert (ATS : at_word W cat h best (W best)).
  { now apply at_self. }
  destruct (positions_count W cat h best (W best) HA ATS) as (raw & k2 & PC & SI & HP & K2).
  rewrite Hmx, PC.
  destruct (get_string_offsets_n 0 raw (map (map Tok) ss)) as [ps k3] eqn:OF.
  exists ps, w, k0, k1, k2, k3, raw. rewrite HWw at 1. rewrite map_length. split; [reflexivity|].
  split; [exact K0|]. pose proof (ai_size _ _ _ HA) as SZ. rewrite LC in SZ. split; [lia|]. split; [exact K2|].
  split. { intros ->. destruct (proj1 (a_canon W cat h HA best Hbn)) as [e Oe]. apply Occ_iff in Oe as [_ Oe]. apply HP in Oe. destruct Oe. }
  split.
  { transitivity (length (seq 0 (total ss + 1))); [|rewrite seq_length; lia]. apply NoDup_incl_length; [now apply inc_NoDup|].
    intros p Hp. apply HP in Hp. destruct Hp as [Hp _]. apply in_seq. rewrite LC in Hp. lia. }
  split; [exact SI|]. split; [|now rewrite OF]. intros p. rewrite HP, HWw. reflexivity.
Qed.
Theorem multi_cost ss : ss <> [] -> exists ps l k0 k1 k2 k3,
  find_lcs_multiple_n Sep is_Sep (map (map (@Tok T)) ss) = Some (ps, Some l, (k0, k1, k2, k3)) /\
  find_lcs_multi ss = Some (ps, Some l) /\
  total ss + 1 <= k0 <= 3 * total ss + 1 /\ total ss + 1 <= k1 <= 7 * total ss + 4 /\
  1 <= k2 <= 2 * total ss + 1 /\ length ss <= k3 <= length ss * (total ss + 1).
Proof.
  intros NE. destruct (multi_steps ss NE) as (ps & w & k0 & k1 & k2 & k3 & raw & F & A & B & C & NR & LR & SI & HP & ->).
  exists ps, (length w), k0, k1, k2, (snd (get_string_offsets_n 0 raw (map (map Tok) ss))). split; [exact F|].
  split. { pose proof (multiple_erase Sep is_Sep (map (map Tok) ss)) as EQ. rewrite F in EQ. symmetry. exact EQ. }
  split; [exact A|]. split; [exact B|]. split. { destruct raw; [congruence|]. cbn [length] in *. lia. }
  pose proof (offsets_ge raw (map (map (@Tok T)) ss) NR 0) as G. pose proof (offsets_le raw (map (map (@Tok T)) ss) 0) as L.
  rewrite map_length in G, L. split; [exact G|]. etransitivity; [exact L|]. apply Nat.mul_le_mono_l. lia.
Qed.
(** ** many equal strings of one token *)
Lemma cat_ones (x : T) n : forall i p, nth_error (concat_from Sep i (map (map Tok) (repeat [x] n))) p =
  if p <? 2 * n then Some (if Nat.even p then Tok x else Sep (i + Nat.div2 p)) else None.
Proof.
  induction n as [|n IH]; intros i p; [destruct p; reflexivity|]. cbn [repeat map concat_from app].
  destruct p as [|[|p]].
  - reflexivity.
  - cbn [nth_error]. destruct (Nat.ltb_spec 1 (2 * S n)); [|lia]. cbn. f_equal. f_equal. lia.
  - cbn [nth_error]. rewrite IH. cbn [Nat.even Nat.div2].
    destruct (Nat.ltb_spec p (2 * n)), (Nat.ltb_spec (S (S p)) (2 * S n)); try lia; [|reflexivity].
    destruct (Nat.even p); [reflexivity|]. do 2 f_equal. lia.
Qed.
Lemma find_n_before b : forall ps, strictly_increasing ps -> (exists p, In p ps /\ b <= p) ->
  snd (find_n (fun p => b <=? p) ps) = S (length (filter (fun p => p <? b) ps)).
Proof.
  induction ps as [|x ps IH]; intros SI (p & Hp & L); [destruct Hp|]. cbn [find_n filter].
  assert (SI' : strictly_increasing ps) by (intros i j u v Q A B; apply (SI (S i) (S j)); auto; lia).
  destruct (Nat.leb_spec b x) as [LE|GT].
  - cbn [snd]. destruct (Nat.ltb_spec x b); [lia|].
    assert (F : filter (fun p => p <? b) ps = []); [|now rewrite F].
    clear IH Hp SI'. induction ps as [|y ps IH2]; [reflexivity|]. cbn [filter].
    pose proof (SI 0 1 x y ltac:(lia) eq_refl eq_refl). destruct (Nat.ltb_spec y b); [lia|]. apply IH2.
    intros [|i] [|j] u v Q A B; cbn in A, B; try lia.
    + injection A as ->. apply (SI 0 (S (S j))); auto; lia.
    + apply (SI (S (S i)) (S (S j))); auto; lia.
  - destruct (Nat.ltb_spec x b); [|lia]. cbn [length]. destruct Hp as [<-|Hp]; [lia|].
    specialize (IH SI' (ex_intro _ p (conj Hp L))). destruct (find_n _ ps). cbn [snd] in *. now rewrite IH.
Qed.
Theorem multi_quadratic (x : T) n : 1 <= n -> exists ps l k0 k1 k2 k3,
  find_lcs_multiple_n Sep is_Sep (map (map Tok) (repeat [x] n)) = Some (ps, Some l, (k0, k1, k2, k3)) /\
  total (repeat [x] n) = 2 * n /\ n * (n + 1) <= 2 * k3.
Proof.
  intros Hn. assert (NE : repeat [x] n <> []) by (destruct n; [lia|discriminate]).
  destruct (multi_steps (repeat [x] n) NE) as (ps & w & k0 & k1 & k2 & k3 & raw & F & _ & _ & _ & NR & _ & SI & HP & ->).
  exists ps, (length w), k0, k1, k2, (snd (get_string_offsets_n 0 raw (map (map Tok) (repeat [x] n)))). split; [exact F|].
  split. { unfold total. clear. induction n as [|n IH]; [reflexivity|]. cbn [repeat map list_sum fold_right]. unfold list_sum in IH. rewrite IH. cbn. lia. }
  (* the common word is x *)
  assert (Hw : w = [x]).
  { destruct (find_lcs_multi_ok (repeat [x] n) NE) as (ps' & l' & w' & F' & LP & LW & OC & MX).
    pose proof (multiple_erase Sep is_Sep (map (map Tok) (repeat [x] n))) as EQ. rewrite F in EQ. cbn in EQ.
    unfold find_lcs_multi in F'. rewrite F' in EQ. injection EQ as EP EL.
    assert (L1 : 1 <= l').
    { apply (MX [x]). intros s Hs. apply repeat_spec in Hs as ->. exists 0. split; [cbn; lia|reflexivity]. }
    destruct raw as [|p raw]; [congruence|]. assert (Hp : In p (p :: raw)) by now left. apply HP in Hp.
    destruct Hp as [Hp1 Hp2]. rewrite map_length in *.
    assert (R : forall j c, nth_error w j = Some c -> Nat.even (p + j) = true /\ c = x).
    { intros j c Hj. assert (K : nth_error (slice (concat_from Sep 0 (map (map Tok) (repeat [x] n))) p (length w)) j = Some (Tok c)).
      { rewrite Hp2. now apply map_nth_error. }
      unfold slice in K. assert (j < length w) by (apply nth_error_Some; congruence).
      rewrite nth_error_firstn_lt, nth_error_skipn, cat_ones in K by assumption.
      destruct (p + j <? 2 * n); [|discriminate]. destruct (Nat.even (p + j)); [|discriminate]. split; [reflexivity|congruence]. }
    destruct w as [|a [|b w]].
    - cbn in EL. lia.
    - destruct (R 0 a eq_refl) as [_ ->]. reflexivity.
    - destruct (R 0 a eq_refl) as [A _], (R 1 b eq_refl) as [B _]. rewrite Nat.add_0_r in A. rewrite Nat.add_1_r, Nat.even_succ, <- Nat.negb_even, A in B. discriminate. }
  subst w. cbn [map] in HP.
  assert (IN : forall j, j < n -> In (2 * j) raw).
  { intros j Hj. apply HP. split.
    - cbn [length]. rewrite cat_length. unfold total. cut (list_sum (map (fun s : list T => length s + 1) (repeat [x] n)) = 2 * n); [lia|].
      clear. induction n as [|n IH]; [reflexivity|]. cbn [repeat map list_sum fold_right]. unfold list_sum in IH. rewrite IH. cbn. lia.
    - unfold slice. pose proof (cat_ones x n 0 (2 * j)) as K. destruct (Nat.ltb_spec (2 * j) (2 * n)); [|lia].
      rewrite Nat.even_mul in K. cbn [Nat.even orb] in K. rewrite <- (Nat.add_0_r (2 * j)) in K at 1. rewrite <- nth_error_skipn in K.
      cbn [length]. destruct (skipn (2 * j) _) as [|c l]; [discriminate|]. cbn in K. injection K as ->. reflexivity. }
  assert (CNT : forall j, j <= n -> j <= length (filter (fun p => p <? 2 * j) raw)).
  { intros j Hj. transitivity (length (map (fun i => 2 * i) (seq 0 j))); [rewrite map_length, seq_length; lia|].
    apply NoDup_incl_length.
    - apply FinFun.Injective_map_NoDup; [intros u v; lia|apply seq_NoDup].
    - intros p Hp. apply in_map_iff in Hp as (i & <- & Hi). apply in_seq in Hi. apply filter_In. split; [apply IN; lia|].
      apply Nat.ltb_lt. lia. }
  assert (G : forall r j, j + r = n -> r * (2 * j + r + 1) <= 2 * snd (get_string_offsets_n (2 * j) raw (map (map (@Tok T)) (repeat [x] r)))).
  { induction r as [|r IH]; intros j Hj; [cbn; lia|]. cbn [repeat map get_string_offsets_n length].
    replace (2 * j + (1 + 1)) with (2 * S j) by lia. specialize (IH (S j) ltac:(lia)).
    pose proof (find_n_before (2 * j) raw SI) as FB. specialize (CNT j ltac:(lia)).
    destruct (find_n (fun p => 2 * j <=? p) raw) as [o k] eqn:FN.
    destruct (get_string_offsets_n (2 * S j) raw (map (map (@Tok T)) (repeat [x] r))) as [l k']. cbn [snd] in *.
    rewrite FB; [|exists (2 * j); split; [apply IN; lia|lia]]. nia. }
  specialize (G n 0 ltac:(lia)). change (2 * 0) with 0 in G. cbn [Nat.add] in G. exact G.
Qed.
Theorem multi_nonlinear (x : T) c : exists ss ps l k0 k1 k2 k3, ss <> [] /\
  find_lcs_multiple_n Sep is_Sep (map (map (@Tok T)) ss) = Some (ps, Some l, (k0, k1, k2, k3)) /\ c * total ss < k3.
Proof.
  destruct (multi_quadratic x (4 * c + 1) ltac:(lia)) as (ps & l & k0 & k1 & k2 & k3 & F & N & K).
  exists (repeat [x] (4 * c + 1)), ps, l, k0, k1, k2, k3. split; [rewrite Nat.add_1_r; discriminate|]. split; [exact F|].
  rewrite N. nia.
Qed.
End Multi.
