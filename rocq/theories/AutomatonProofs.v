(** Correctness of the automaton queries. *)
From Coq Require Import Permutation Sorting.Sorted.
From Verif Require Import Base Strings StringsExt Automaton AutomatonInv SpecSeq.

Section Queries.
Context {T : Type} {E : Teq T} {O : TeqOk T}.
Implicit Types (s w u v m : list T) (h : heap T) (W : nat -> list T).

(** ** Relating end positions to slices *)
Lemma Occ_iff s w e :
  Occ s w e <-> length w <= e /\ occurs_at s w (e - length w).
Proof.
  split.
  - intros H; pose proof (Occ_le _ _ _ H) as H1; destruct H as [H2 H3].
    split; [exact H1|]; split; [lia|].
    apply suf_skipn in H3; rewrite firstn_length_le in H3 by lia.
    unfold slice; rewrite firstn_skipn_comm.
    replace (e - length w + length w) with e by lia.
    symmetry; exact H3.
  - intros [H1 [H2 H3]]; split; [lia|].
    unfold slice in H3; rewrite firstn_skipn_comm in H3.
    replace (e - length w + length w) with e in H3 by lia.
    rewrite <- H3 at 1; apply skipn_suf.
Qed.
Lemma occurs_Occ s w p : occurs_at s w p <-> Occ s w (p + length w).
Proof.
  rewrite Occ_iff; replace (p + length w - length w) with p by lia.
  split; [intros; split; [lia|assumption]|tauto].
Qed.
Lemma slice_length (s : list T) p n : p + n <= length s -> length (slice s p n) = n.
Proof. intros H; unfold slice; rewrite firstn_length, skipn_length; lia. Qed.
Lemma common_occ a b pa pb l :
  common_run a b pa pb l <->
  exists w, length w = l /\ occurs_at a w pa /\ occurs_at b w pb.
Proof.
  split.
  - intros [H1 [H2 H3]]; exists (slice a pa l).
    assert (Hl : length (slice a pa l) = l) by now apply slice_length.
    unfold occurs_at; rewrite Hl; auto.
  - intros [w [<- [[H1 H2] [H3 H4]]]]; split; [exact H1|]; split; [exact H3|]; congruence.
Qed.

(** ** The invariant of the finished automaton *)
Record AInv W s h : Prop := {
  ai_node : forall i nd, nth_error h i = Some nd -> node_ok s W (length h) i nd;
  ai_inj : forall i j, i < length h -> j < length h -> W i = W j -> i = j;
  ai_surj : forall w, Canon s w -> exists i, i < length h /\ W i = w;
  ai_root : 0 < length h /\ W 0 = [];
  ai_size : S (length s) <= length h;
  ai_term : forall i nd, nth_error h i = Some nd -> n_term nd = true <-> suf (W i) s;
  ai_rev : forall i nd, nth_error h i = Some nd ->
     NoDup (n_rev nd) /\
     forall j, In j (n_rev nd) <-> exists nj, nth_error h j = Some nj /\ n_link nj = Some i
}.

(** same len, transitions, first end and link *)
Definition same_core (n1 n2 : node T) : Prop :=
  n_len n1 = n_len n2 /\ n_trans n1 = n_trans n2 /\ n_fe n1 = n_fe n2 /\ n_link n1 = n_link n2.
Lemma same_core_ok s W n i n1 n2 :
  same_core n1 n2 -> node_ok s W n i n1 -> node_ok s W n i n2.
Proof.
  intros [H1 [H2 [H3 H4]]] [K1 K2 K3 K4 K5 K6].
  constructor; rewrite <- ?H1, <- ?H2, <- ?H3, <- ?H4; auto; congruence.
Qed.

(** ** Terminal marks *)
Definition tmark s W (b i : nat) (nd : node T) : node T :=
  if (if suf_dec (W i) s then b <=? length (W i) else false) then set_term nd else nd.

Section Mark.
Variables (W : nat -> list T) (s : list T) (h : heap T) (last : nat).
Hypothesis HI : Inv W s h last.

Lemma mark_ok fuel : forall hk cur b,
  length hk = length h ->
  (forall i, nth_error hk i = option_map (tmark s W b i) (nth_error h i)) ->
  match cur with
  | Some p => p < length h /\ suf (W p) s /\ b = S (length (W p)) /\ length (W p) + 2 <= fuel
  | None => b = 0 /\ 1 <= fuel
  end ->
  exists h', mark_terminals fuel hk cur = Some h' /\ length h' = length h /\
    forall i, nth_error h' i = option_map (tmark s W 0 i) (nth_error h i).
Proof.
  induction fuel as [|fuel IH]; intros hk cur b H1 H3 Hc.
  { destruct cur; lia. }
  destruct cur as [p|]; cbn [mark_terminals].
  2:{ destruct Hc as [-> _]; eauto. }
  destruct Hc as [Hp [Hps [Hb Hf]]].
  destruct (idx_node h p Hp) as [nd Hnd].
  rewrite (H3 p), Hnd; cbn [option_map].
  assert (Hmk : tmark s W b p nd = nd).
  { unfold tmark; destruct (suf_dec (W p) s); [|reflexivity].
    destruct (Nat.leb_spec b (length (W p))); [lia|reflexivity]. }
  rewrite Hmk.
  pose proof (ok_link _ _ _ _ _ (inv_node _ _ _ _ HI _ _ Hnd)) as Hl.
  set (b' := match n_link nd with Some j => S (length (W j)) | None => 0 end).
  assert (Hb' : b' <= length (W p)).
  { subst b'; destruct (n_link nd) as [j|]; cbn in Hl; [destruct Hl as [_ [_ [Hl _]]]; lia|lia]. }
  apply (IH _ _ b').
  - rewrite lupd_length; exact H1.
  - intros i; rewrite nth_error_lupd; destruct (Nat.eqb_spec p i) as [<-|Hpi].
    + rewrite (H3 p), Hnd; cbn; f_equal; rewrite Hmk; unfold tmark.
      destruct (suf_dec (W p) s) as [_|]; [|contradiction].
      destruct (Nat.leb_spec b' (length (W p))); [reflexivity|lia].
    + rewrite (H3 i); destruct (nth_error h i) as [ni|] eqn:Hni; [|reflexivity]; cbn; f_equal.
      unfold tmark; destruct (suf_dec (W i) s) as [Hs|]; [|reflexivity].
      assert (Hi : i < length h) by (eapply node_idx; eauto).
      destruct (Nat.leb_spec b (length (W i))), (Nat.leb_spec b' (length (W i))); auto; [lia|exfalso].
      destruct (Nat.eq_dec (length (W i)) (length (W p))) as [He|He].
      * apply Hpi; symmetry; apply (inv_inj _ _ _ _ HI); auto; apply (suf_same_len _ _ s); auto.
      * assert (Hsp : suf (W i) (W p)) by (apply (suf_comparable _ _ s); auto; lia).
        subst b'; destruct (n_link nd) as [j|]; cbn in Hl.
        -- destruct Hl as [_ [_ [_ Hl]]]; specialize (Hl _ (W_Canon W s h last HI i Hi) Hsp); lia.
        -- apply suf_length in Hsp; rewrite Hl in *; cbn in *; lia.
  - subst b'; destruct (n_link nd) as [j|]; cbn in Hl.
    + destruct Hl as [Hj [Hjs [Hjl _]]]; split; [exact Hj|]; split; [eapply suf_trans; eauto|]; split; [reflexivity|lia].
    + split; [reflexivity|lia].
Qed.

(** ** Reverse links *)
Definition rev_of (hh : heap T) (ids : list nat) (u : nat) : list nat :=
  filter (fun i => match nth_error hh i with
                   | Some nd => match n_link nd with Some v => v =? u | None => false end
                   | None => false end) ids.
Definition addrevs (l : list nat) (nd : node T) : node T :=
  mkNode (n_len nd) (n_trans nd) (n_fe nd) (n_term nd) (n_link nd) (n_rev nd ++ l).

Lemma rev_of_lupd (hh : heap T) ids (u i k : nat) : rev_of (lupd hh u (add_rev i)) ids k = rev_of hh ids k.
Proof.
  unfold rev_of; apply filter_ext; intros j; rewrite nth_error_lupd.
  destruct (Nat.eqb_spec u j) as [->|]; [|reflexivity].
  now destruct (nth_error hh j) as [nd|].
Qed.
Lemma add_reverse_links_ok ids : forall hh,
  (forall i, In i ids -> i < length hh) ->
  exists h', add_reverse_links hh ids = Some h' /\ length h' = length hh /\
    ((forall i nd, nth_error hh i = Some nd ->
        match n_link nd with Some u => u < length hh | None => True end) ->
    forall i, nth_error h' i = option_map (addrevs (rev_of hh ids i)) (nth_error hh i)).
Proof.
  induction ids as [|k ids IH]; intros hh Hb; cbn [add_reverse_links].
  - exists hh; split; [reflexivity|]; split; [reflexivity|]; intros _ i.
    destruct (nth_error hh i) as [nd|]; [|reflexivity]; cbn; f_equal.
    unfold addrevs; rewrite app_nil_r; now destruct nd.
  - destruct (nth_error hh k) as [nk|] eqn:Hk.
    2:{ apply nth_error_None in Hk; specialize (Hb k (or_introl eq_refl)); lia. }
    destruct (n_link nk) as [u|] eqn:Hu.
    + destruct (IH (lupd hh u (add_rev k))) as [h' [-> [H2 H3]]].
      { intros i Hi; rewrite lupd_length; apply Hb; now right. }
      exists h'; split; [reflexivity|]; split; [now rewrite H2, lupd_length|].
      intros Hl i.
      rewrite H3.
      2:{ intros j nd Hj; rewrite lupd_length; rewrite nth_error_lupd in Hj.
          destruct (Nat.eqb_spec u j) as [->|]; [|now apply (Hl j)].
          destruct (nth_error hh j) as [nj|] eqn:Hnj; [|discriminate].
          cbn in Hj; injection Hj as <-; cbn; apply (Hl j nj Hnj). }
      rewrite nth_error_lupd, rev_of_lupd.
      assert (Hcons : rev_of hh (k :: ids) i =
                      if u =? i then k :: rev_of hh ids i else rev_of hh ids i).
      { unfold rev_of at 1; cbn [filter]; rewrite Hk, Hu; reflexivity. }
      rewrite Hcons; destruct (Nat.eqb_spec u i) as [->|Hui].
      * destruct (nth_error hh i) as [ni|]; [|reflexivity]; cbn; f_equal.
        unfold addrevs, add_rev; cbn; now rewrite <- app_assoc.
      * reflexivity.
    + destruct (IH hh) as [h' [-> [H2 H3]]].
      { intros i Hi; apply Hb; now right. }
      exists h'; split; [reflexivity|]; split; [exact H2|].
      intros Hl i; rewrite (H3 Hl).
      unfold rev_of at 2; cbn [filter]; rewrite Hk, Hu; reflexivity.
Qed.

End Mark.

(** nodes created by extend start unmarked *)
Definition clean h := forall i nd, nth_error h i = Some nd -> n_term nd = false /\ n_rev nd = [].
Lemma clean_lupd h i f :
  (forall nd, n_term (f nd) = n_term nd /\ n_rev (f nd) = n_rev nd) -> clean h -> clean (lupd h i f).
Proof.
  intros Hf Hc j nd Hj; rewrite nth_error_lupd in Hj; destruct (i =? j).
  - destruct (nth_error h j) as [n0|] eqn:Hn; [|discriminate].
    cbn in Hj; injection Hj as <-; destruct (Hf n0) as [-> ->]; eapply Hc; eauto.
  - eapply Hc; eauto.
Qed.
Lemma clean_app h nd : n_term nd = false -> n_rev nd = [] -> clean h -> clean (h ++ [nd]).
Proof.
  intros H1 H2 Hc i n0 Hi; destruct (Nat.lt_ge_cases i (length h)) as [Hl|Hl].
  - rewrite nth_error_app1 in Hi by lia; eapply Hc; eauto.
  - rewrite nth_error_app2 in Hi by lia.
    destruct (i - length h) as [|k]; cbn in Hi; [injection Hi as <-; auto|destruct k; discriminate].
Qed.
Lemma clean_extend_loop fuel : forall h t z prev cur h' p' c',
  clean h -> extend_loop fuel h t z prev cur = Some (h', p', c') -> clean h'.
Proof.
  induction fuel as [|fuel IH]; intros h t z prev cur h' p' c' Hc Hr; cbn [extend_loop] in Hr; [discriminate|].
  destruct cur as [c|]; [|now injection Hr as <- _ _].
  destruct (nth_error h c) as [nd|]; [|discriminate].
  destruct (dmem (n_trans nd) t); [now injection Hr as <- _ _|].
  apply IH in Hr; [exact Hr|]; apply clean_lupd; auto.
Qed.
Lemma clean_redirect fuel : forall h t q cl cur h',
  clean h -> redirect_loop fuel h t q cl cur = Some h' -> clean h'.
Proof.
  induction fuel as [|fuel IH]; intros h t q cl cur h' Hc Hr; cbn [redirect_loop] in Hr; [discriminate|].
  destruct cur as [c|]; [|now injection Hr as <-].
  destruct (nth_error h c) as [nd|]; [|discriminate].
  destruct (dget (n_trans nd) t) as [d|]; [|now injection Hr as <-].
  destruct (d =? q); [|now injection Hr as <-].
  apply IH in Hr; [exact Hr|]; apply clean_lupd; auto.
Qed.
Lemma clean_extend h last t h' last' :
  clean h -> extend h last t = Some (h', last') -> clean h'.
Proof.
  unfold extend; intros Hc Hr.
  destruct (nth_error h last) as [nl|]; [|discriminate].
  destruct (extend_loop _ _ _ _ _ _) as [[[h2 prev] cur]|] eqn:HL; [|discriminate].
  assert (Hc2 : clean h2) by (eapply clean_extend_loop; [|exact HL]; apply clean_app; auto).
  destruct cur as [p|].
  2:{ injection Hr as <- _; apply clean_lupd; auto. }
  destruct (nth_error h2 p) as [np|]; [|discriminate].
  destruct (dget (n_trans np) t) as [q|]; [|discriminate].
  destruct (nth_error h2 q) as [nq|] eqn:Hq; [|discriminate].
  destruct (n_len nq =? n_len np + 1).
  { injection Hr as <- _; apply clean_lupd; auto. }
  destruct (insert_node h2 t p q) as [[h3 cl]|] eqn:HN; [|discriminate].
  injection Hr as <- _; apply clean_lupd; auto.
  unfold insert_node in HN.
  destruct (nth_error h2 p) as [np'|]; [|discriminate]; rewrite Hq in HN.
  destruct (redirect_loop _ _ _ _ _ _) as [h4|] eqn:HR; [|discriminate].
  injection HN as <- _; eapply clean_redirect; [|exact HR].
  apply clean_lupd; auto; apply clean_app; auto.
Qed.
Lemma clean_extend_all s : forall h last h' last',
  clean h -> extend_all h last s = Some (h', last') -> clean h'.
Proof.
  induction s as [|t s IH]; intros h last h' last' Hc Hr; cbn [extend_all] in Hr.
  - now injection Hr as <- _.
  - destruct (extend h last t) as [[h1 l1]|] eqn:HE; [|discriminate].
    eapply IH; [eapply clean_extend; eauto|exact Hr].
Qed.

Theorem build_ok s : exists W h, build s = Some h /\ AInv W s h /\
  S (length s) <= length h <= 2 * length s + 1 /\
  (2 <= length s -> length h <= 2 * length s - 1).
Proof.
  destruct (build_core_ok s) as [W [h [last [HB [HI HS]]]]].
  unfold build; rewrite HB.
  assert (Hclean : clean h).
  { eapply clean_extend_all; [|exact HB]; intros [|i] nd Hn; cbn in Hn; [injection Hn as <-; auto|destruct i; discriminate]. }
  destruct (inv_last _ _ _ _ HI) as [Hl HWl].
  destruct (mark_ok W s h last HI (S (S (length s))) h (Some last) (S (length s))) as [h1 [-> [H1 H2]]].
  - reflexivity.
  - intros i; destruct (nth_error h i) as [nd|] eqn:Hn; [|reflexivity]; cbn; f_equal.
    unfold tmark; destruct (suf_dec (W i) s) as [Hs|]; [|reflexivity].
    destruct (Nat.leb_spec (S (length s)) (length (W i))) as [Hle|]; [|reflexivity].
    apply suf_length in Hs; lia.
  - rewrite HWl; split; [exact Hl|]; split; [apply suf_refl|]; split; [reflexivity|lia].
  - destruct (add_reverse_links_ok (seq 0 (length h1)) h1) as [h2 [-> [H3 H4]]].
    { intros i Hi; apply in_seq in Hi; lia. }
    assert (Hlb : forall i nd, nth_error h1 i = Some nd -> match n_link nd with Some u => u < length h1 | None => True end).
    { intros i nd Hn; rewrite H2 in Hn; destruct (nth_error h i) as [n0|] eqn:Hn0; [|discriminate].
      cbn in Hn; injection Hn as <-.
      pose proof (ok_link _ _ _ _ _ (inv_node _ _ _ _ HI _ _ Hn0)) as K.
      replace (n_link (tmark s W 0 i n0)) with (n_link n0)
        by (unfold tmark; destruct (if suf_dec (W i) s then _ else _); reflexivity).
      destruct (n_link n0); [|exact I]; rewrite H1; apply K. }
    specialize (H4 Hlb).
    assert (Hfin : forall i nd, nth_error h2 i = Some nd -> exists n0, nth_error h i = Some n0 /\
        same_core n0 nd /\ n_term nd = n_term (tmark s W 0 i n0) /\ n_rev nd = rev_of h1 (seq 0 (length h1)) i).
    { intros i nd Hn; rewrite H4, H2 in Hn; destruct (nth_error h i) as [n0|] eqn:Hn0; [|discriminate].
      cbn in Hn; injection Hn as <-; exists n0; split; [reflexivity|].
      destruct (Hclean _ _ Hn0) as [C1 C2].
      unfold tmark; destruct (if suf_dec (W i) s then _ else _); cbn; rewrite C2; repeat split; auto. }
    assert (HLE : length h2 = length h) by congruence.
    exists W, h2; split; [reflexivity|]; rewrite HLE; split; [|exact HS]; constructor; rewrite ?HLE.
    + intros i nd Hn; destruct (Hfin i nd Hn) as [n0 [Hn0 [Hsc _]]].
      eapply same_core_ok; [exact Hsc|]; eapply inv_node; eauto.
    + apply (inv_inj _ _ _ _ HI).
    + apply (inv_surj _ _ _ _ HI).
    + apply (inv_root _ _ _ _ HI).
    + lia.
    + intros i nd Hn; destruct (Hfin i nd Hn) as [n0 [Hn0 [_ [-> _]]]].
      unfold tmark; destruct (suf_dec (W i) s) as [Hs|Hs]; cbn.
      * tauto.
      * destruct (Hclean _ _ Hn0) as [-> _]; split; [discriminate|contradiction].
    + intros i nd Hn; destruct (Hfin i nd Hn) as [n0 [Hn0 [_ [_ ->]]]]; split.
      * apply NoDup_filter, seq_NoDup.
      * intros j; unfold rev_of; rewrite filter_In, in_seq; split.
        -- intros [Hj Hm]; destruct (nth_error h1 j) as [nj|] eqn:Hnj; [|discriminate].
           destruct (n_link nj) as [v|] eqn:Hv; [|discriminate]; apply Nat.eqb_eq in Hm; subst v.
           rewrite H4, Hnj; cbn; eexists; split; [reflexivity|exact Hv].
        -- intros [nj [Hnj Hv]]; rewrite H4 in Hnj; destruct (nth_error h1 j) as [mj|] eqn:Hmj; [|discriminate].
           cbn in Hnj; injection Hnj as <-; cbn in Hv; rewrite Hv, Nat.eqb_refl; split; [|reflexivity].
           split; [lia|]; cbn; apply nth_error_Some; congruence.
Qed.

(** ** Walking the automaton *)
Section Walk.
Variables (W : nat -> list T) (s : list T) (h : heap T).
Hypothesis HA : AInv W s h.
Notation n := (length h).

Lemma a_canon i : i < n -> Canon s (W i).
Proof.
  intros Hi; destruct (idx_node h i Hi) as [nd Hnd]; apply (ok_canon _ _ _ _ _ (ai_node _ _ _ HA _ _ Hnd)).
Qed.
Lemma a_len i : i < n -> length (W i) <= length s.
Proof. intros Hi; apply Sub_length; apply (a_canon i Hi). Qed.

(** [at_word i u]: state i is where reading u ends *)
Definition at_word (i : nat) u : Prop := i < n /\ suf u (W i) /\ eqv s u (W i).

Lemma at_root : at_word 0 [].
Proof.
  destruct (ai_root _ _ _ HA) as [H0 HW]; split; [exact H0|]; rewrite HW; split; [apply suf_refl|apply eqv_refl].
Qed.
Lemma at_self i : i < n -> at_word i (W i).
Proof. intros Hi; split; [exact Hi|]; split; [apply suf_refl|apply eqv_refl]. Qed.
Lemma at_Sub i u : at_word i u -> Sub s u.
Proof. intros [Hi [_ He]]; eapply eqv_Sub; [apply eqv_sym, He|apply (a_canon i Hi)]. Qed.
Lemma at_step i u nd a : at_word i u -> nth_error h i = Some nd ->
  match dget (n_trans nd) a with
  | Some j => at_word j (u ++ [a])
  | None => ~ Sub s (u ++ [a])
  end.
Proof.
  intros [Hi [Hs He]] Hn.
  pose proof (ok_trans _ _ _ _ _ (ai_node _ _ _ HA _ _ Hn) a) as K.
  destruct (dget (n_trans nd) a) as [j|]; cbn in K.
  - destruct K as [Hj [Kj Ke]]; split; [exact Hj|]; split.
    + eapply suf_trans; [|exact Kj]; now apply suf_snoc.
    + eapply eqv_trans; [|exact Ke]; now apply eqv_snoc.
  - intros C; apply K; eapply eqv_Sub; [|exact C]; now apply eqv_snoc.
Qed.

Lemma find_match_ok w : forall i u, at_word i u ->
  (exists j, find_match_node h i w = Some (Some j) /\ at_word j (u ++ w)) \/
  (find_match_node h i w = Some None /\ ~ Sub s (u ++ w)).
Proof.
  induction w as [|a w IH]; intros i u Hat; cbn [find_match_node].
  - left; exists i; rewrite app_nil_r; auto.
  - destruct (idx_node h i (proj1 Hat)) as [nd Hnd]; rewrite Hnd.
    pose proof (at_step i u nd a Hat Hnd) as K.
    destruct (dget (n_trans nd) a) as [j|].
    + destruct (IH j (u ++ [a]) K) as [[k [-> Hk]]|[-> Hk]]; rewrite <- app_assoc in Hk; cbn in Hk; eauto.
    + right; split; [reflexivity|]; intros C; apply K.
      destruct C as [e He]; revert e He; clear.
      assert (H : forall r v e, Occ s (v ++ r) e -> Sub s v).
      { intros r; induction r as [|x r IH]; intros v e He.
        - rewrite app_nil_r in He; exists e; exact He.
        - replace (v ++ x :: r) with ((v ++ [x]) ++ r) in He by (now rewrite <- app_assoc).
          apply IH in He; eapply Sub_snoc; eauto. }
      intros e He; replace (u ++ a :: w) with ((u ++ [a]) ++ w) in He by (now rewrite <- app_assoc).
      eapply H; eauto.
Qed.

Lemma at_first i u nd : at_word i u -> nth_error h i = Some nd -> first_end s u (n_fe nd).
Proof.
  intros [Hi [Hs He]] Hn; destruct (ok_fe _ _ _ _ _ (ai_node _ _ _ HA _ _ Hn)) as [F1 F2].
  split; [now apply He|]; intros e Ho; apply F2; now apply He.
Qed.

Lemma sa_find_substring_ok w :
  (exists p, sa_find_substring h w = Some (Some p) /\ occurs_at s w p /\
             forall q, occurs_at s w q -> p <= q) \/
  (sa_find_substring h w = Some None /\ forall q, ~ occurs_at s w q).
Proof.
  unfold sa_find_substring.
  destruct (find_match_ok w 0 [] at_root) as [[j [-> Hj]]|[-> Hn]]; cbn in *.
  - destruct (idx_node h j (proj1 Hj)) as [nd Hnd]; rewrite Hnd.
    destruct (at_first _ _ _ Hj Hnd) as [F1 F2].
    pose proof (Occ_le _ _ _ F1) as Hle.
    unfold nsub; destruct (Nat.leb_spec (length w) (n_fe nd)); [|lia].
    left; eexists; split; [reflexivity|]; split; [now apply Occ_iff|].
    intros q Hq; apply occurs_Occ in Hq; apply F2 in Hq; lia.
  - right; split; [reflexivity|]; intros q Hq; apply Hn; apply occurs_Occ in Hq; eexists; eauto.
Qed.

(** ** All occurrences *)
Lemma rev_parent i j nj : nth_error h j = Some nj -> n_link nj = Some i ->
  i < n /\ suf (W i) (W j) /\ length (W i) < length (W j) /\
  forall w, Canon s w -> suf w (W j) -> length w < length (W j) -> length w <= length (W i).
Proof.
  intros Hn Hl; pose proof (ok_link _ _ _ _ _ (ai_node _ _ _ HA _ _ Hn)) as K; rewrite Hl in K; exact K.
Qed.

Lemma follow_ok (v : nat) (Hv : v < n) fuel : forall todo all,
  NoDup (all ++ todo) ->
  (forall x, In x (all ++ todo) -> x < n /\ suf (W v) (W x) /\
     (x = v \/ exists nx y, nth_error h x = Some nx /\ n_link nx = Some y /\ In y all)) ->
  In v (all ++ todo) ->
  (forall x nx y, nth_error h x = Some nx -> n_link nx = Some y -> In y all -> In x (all ++ todo)) ->
  fuel + length all = n ->
  exists res, follow_reverse_links fuel h todo all = Some res /\ NoDup res /\
    forall x, In x res <-> x < n /\ suf (W v) (W x).
Proof.
  induction fuel as [|fuel IH]; intros todo all H1 H2 H3 H4 H5.
  - assert (Htodo : todo = []).
    { destruct todo as [|c todo]; [reflexivity|exfalso].
      assert (Hincl : incl (all ++ c :: todo) (seq 0 n)).
      { intros x Hx; apply in_seq; destruct (H2 x Hx); lia. }
      apply NoDup_incl_length in Hincl; [|exact H1].
      rewrite seq_length, app_length in Hincl; cbn in Hincl; lia. }
    subst todo; cbn; exists all; rewrite app_nil_r in *; split; [reflexivity|]; split; [exact H1|].
    intros x; split; [intros Hx; destruct (H2 x Hx) as [? [? _]]; auto|].
    intros [Hx Hs]; remember (length (W x)) as k eqn:Hk; revert x Hx Hs Hk.
    induction k as [k IHk] using lt_wf_ind; intros x Hx Hs Hk.
    destruct (Nat.eq_dec x v) as [->|Hxv]; [exact H3|].
    destruct (idx_node h x Hx) as [nx Hnx].
    pose proof (suf_length _ _ Hs) as Hle.
    assert (Hlt : length (W v) < length (W x)).
    { destruct (Nat.eq_dec (length (W v)) (length (W x))) as [He|]; [|lia].
      exfalso; apply Hxv; symmetry; apply (ai_inj _ _ _ HA); auto; apply suf_len_eq; [exact Hs|lia]. }
    pose proof (ok_link _ _ _ _ _ (ai_node _ _ _ HA _ _ Hnx)) as K.
    destruct (n_link nx) as [y|] eqn:Hy; cbn in K.
    + destruct K as [K1 [K2 [K3 K4]]].
      eapply H4; [exact Hnx|exact Hy|].
      eapply (IHk (length (W y))); auto; [lia|].
      apply (suf_comparable _ _ (W x)); auto; apply K4; auto; now apply a_canon.
    + rewrite K in Hlt; cbn in Hlt; lia.
  - destruct todo as [|c todo]; cbn [follow_reverse_links].
    + exists all; rewrite app_nil_r in *; split; [reflexivity|]; split; [exact H1|].
      intros x; split; [intros Hx; destruct (H2 x Hx) as [? [? _]]; auto|].
      intros [Hx Hs]; remember (length (W x)) as k eqn:Hk; revert x Hx Hs Hk.
      induction k as [k IHk] using lt_wf_ind; intros x Hx Hs Hk.
      destruct (Nat.eq_dec x v) as [->|Hxv]; [exact H3|].
      destruct (idx_node h x Hx) as [nx Hnx].
      pose proof (suf_length _ _ Hs) as Hle.
      assert (Hlt : length (W v) < length (W x)).
      { destruct (Nat.eq_dec (length (W v)) (length (W x))) as [He|]; [|lia].
        exfalso; apply Hxv; symmetry; apply (ai_inj _ _ _ HA); auto; apply suf_len_eq; [exact Hs|lia]. }
      pose proof (ok_link _ _ _ _ _ (ai_node _ _ _ HA _ _ Hnx)) as K.
      destruct (n_link nx) as [y|] eqn:Hy; cbn in K.
      * destruct K as [K1 [K2 [K3 K4]]].
        eapply H4; [exact Hnx|exact Hy|].
        eapply (IHk (length (W y))); auto; [lia|].
        apply (suf_comparable _ _ (W x)); auto; apply K4; auto; now apply a_canon.
      * rewrite K in Hlt; cbn in Hlt; lia.
    + destruct (H2 c) as [Hc [Hcs _]]; [apply in_or_app; right; now left|].
      destruct (idx_node h c Hc) as [nc Hnc]; rewrite Hnc.
      destruct (ai_rev _ _ _ HA _ _ Hnc) as [R1 R2].
      assert (Hperm : forall x, In x ((all ++ [c]) ++ rev (n_rev nc) ++ todo) <->
                        In x (all ++ c :: todo) \/ In x (n_rev nc)).
      { intros x; rewrite !in_app_iff, <- in_rev; cbn; tauto. }
      assert (Hcall : ~ In c all).
      { intros C; apply NoDup_remove_2 in H1; apply H1, in_or_app; now left. }
      apply IH.
      * assert (P : Permutation ((all ++ [c]) ++ rev (n_rev nc) ++ todo) (n_rev nc ++ all ++ c :: todo)).
        { rewrite <- app_assoc; cbn; rewrite <- (Permutation_rev (n_rev nc)).
          rewrite <- Permutation_middle; rewrite !app_assoc.
          rewrite (Permutation_app_comm all (n_rev nc)).
          rewrite <- app_assoc; rewrite <- Permutation_middle, <- app_assoc; reflexivity. }
        eapply Permutation_NoDup; [apply Permutation_sym, P|].
        apply NoDup_app_intro; auto.
        intros x Hx Hx'; apply R2 in Hx; destruct Hx as [nx [Hnx Hl]].
        destruct (rev_parent _ _ _ Hnx Hl) as [_ [_ [Hlt _]]].
        destruct (H2 x Hx') as [Hxn [_ [->|[nx' [y [Hnx' [Hy Hin]]]]]]].
        -- apply suf_length in Hcs; lia.
        -- assert (y = c) by congruence; subst y; contradiction.
      * intros x Hx; apply Hperm in Hx; destruct Hx as [Hx|Hx].
        -- destruct (H2 x Hx) as [A1 [A2 A3]]; split; [exact A1|]; split; [exact A2|].
           destruct A3 as [->|[nx [y [B1 [B2 B3]]]]]; [now left|right].
           exists nx, y; split; [exact B1|]; split; [exact B2|]; apply in_or_app; now left.
        -- apply R2 in Hx; destruct Hx as [nx [Hnx Hl]].
           destruct (rev_parent _ _ _ Hnx Hl) as [_ [Hsx _]].
           split; [eapply node_idx; eauto|]; split; [eapply suf_trans; eauto|].
           right; exists nx, c; split; [exact Hnx|]; split; [exact Hl|]; apply in_or_app; right; now left.
      * apply Hperm; now left.
      * intros x nx y Hnx Hl Hy; apply Hperm; apply in_app_or in Hy; destruct Hy as [Hy|[<-|[]]].
        -- left; eapply H4; eauto.
        -- right; apply R2; eauto.
      * rewrite app_length; cbn; lia.
Qed.

Lemma start_positions_ok ids len :
  (forall i, In i ids -> exists nd, nth_error h i = Some nd /\ len <= n_fe nd) ->
  exists ps, start_positions h ids len = Some ps /\
    forall p, In p ps <-> exists i nd, In i ids /\ nth_error h i = Some nd /\ n_fe nd = p + len.
Proof.
  induction ids as [|i ids IH]; intros Hb; cbn [start_positions].
  - exists []; split; [reflexivity|]; intros p; split; [intros []|intros [i [nd [[] _]]]].
  - destruct (Hb i (or_introl eq_refl)) as [nd [Hnd Hle]]; rewrite Hnd.
    destruct IH as [ps [-> Hps]]; [intros j Hj; apply Hb; now right|].
    unfold nsub; destruct (Nat.leb_spec len (n_fe nd)); [|lia].
    eexists; split; [reflexivity|]; intros p; cbn; rewrite Hps; split.
    + intros [<-|[j [nj [A [B C]]]]]; [exists i, nd; split; [now left|]; split; [exact Hnd|lia]|exists j, nj; auto].
    + intros [j [nj [[<-|A] [B C]]]]; [left; rewrite Hnd in B; injection B as <-; lia|right; eauto].
Qed.
End Walk.

(** ** sorted and dedup *)
Lemma insert_sorted_perm x l : Permutation (insert_sorted x l) (x :: l).
Proof.
  induction l as [|y l IH]; cbn; [reflexivity|]; destruct (x <=? y); [reflexivity|].
  rewrite IH; apply perm_swap.
Qed.
Lemma sorted_perm l : Permutation (sorted l) l.
Proof. induction l as [|x l IH]; cbn; [reflexivity|]; rewrite insert_sorted_perm; now apply perm_skip. Qed.
Lemma insert_sorted_sorted x l : StronglySorted le l -> StronglySorted le (insert_sorted x l).
Proof.
  induction l as [|y l IH]; intros H; cbn; [repeat constructor|].
  inversion H as [|? ? H1 H2]; subst.
  destruct (Nat.leb_spec x y).
  - constructor; [exact H|]; constructor; [exact H0|].
    rewrite Forall_forall in *; intros z Hz; specialize (H2 z Hz); lia.
  - constructor; [now apply IH|].
    rewrite Forall_forall in *; intros z Hz.
    apply (Permutation_in _ (insert_sorted_perm x l)) in Hz; destruct Hz as [<-|Hz]; [lia|auto].
Qed.
Lemma sorted_sorted l : StronglySorted le (sorted l).
Proof. induction l; cbn; [constructor|now apply insert_sorted_sorted]. Qed.

Lemma dedup_loop_ok l : forall acc,
  StronglySorted le l -> StronglySorted gt acc ->
  (forall y x, In y acc -> In x l -> y <= x) ->
  StronglySorted lt (dedup_loop acc l) /\ forall x, In x (dedup_loop acc l) <-> In x acc \/ In x l.
Proof.
  induction l as [|x l IH]; intros acc Hl Hacc Hb; cbn [dedup_loop].
  - split.
    + clear -Hacc. assert (H : forall r, StronglySorted lt r -> (forall y x, In y acc -> In x r -> y < x) ->
        StronglySorted lt (rev acc ++ r)).
      { induction acc as [|a acc IH]; intros r Hr Hb; cbn; [exact Hr|].
        inversion Hacc as [|? ? A1 A2]; subst; rewrite <- app_assoc; cbn; apply IH; auto.
        - constructor; [exact Hr|]; rewrite Forall_forall; intros z Hz; apply Hb; [now left|exact Hz].
        - rewrite Forall_forall in A2; intros y z Hy [<-|Hz]; [specialize (A2 y Hy); lia|].
          apply Hb; [now right|exact Hz]. }
      rewrite <- (app_nil_r (rev acc)); apply H; [constructor|intros ? ? _ []].
    + intros x; rewrite <- in_rev; cbn; tauto.
  - inversion Hl as [|? ? A1 A2]; subst; rewrite Forall_forall in A2.
    destruct acc as [|y acc].
    + destruct (IH [x]) as [B1 B2]; auto; [repeat constructor|intros y z [<-|[]]; auto|].
      split; [exact B1|]; intros z; rewrite B2; cbn; tauto.
    + destruct (Nat.eqb_spec x y) as [->|Hxy].
      * destruct (IH (y :: acc)) as [B1 B2]; auto; [intros u v Hu Hv; apply Hb; [exact Hu|now right]|].
        split; [exact B1|]; intros z; rewrite B2; cbn; tauto.
      * destruct (IH (x :: y :: acc)) as [B1 B2]; auto.
        -- constructor; [exact Hacc|]; rewrite Forall_forall; intros u Hu.
           assert (K : y <= x) by (apply Hb; [now left|now left]).
           destruct Hu as [<-|Hu]; [lia|]; inversion Hacc as [|? ? C1 C2]; subst.
           rewrite Forall_forall in C2; specialize (C2 u Hu); lia.
        -- intros u v [<-|Hu] Hv; [auto|apply Hb; [exact Hu|now right]].
        -- split; [exact B1|]; intros z; rewrite B2; cbn; tauto.
Qed.
Lemma strongly_sorted_inc l : StronglySorted lt l -> strictly_increasing l.
Proof.
  induction 1 as [|a l H IH HF]; intros i j x y Hij Hi Hj.
  - destruct i; discriminate.
  - destruct i as [|i], j as [|j]; cbn in *; try lia.
    + injection Hi as <-; rewrite Forall_forall in HF; apply HF; eapply nth_error_In; eauto.
    + eapply (IH i j); eauto; lia.
Qed.

Lemma prefix_first s e e' : e <= length s -> first_end s (firstn e s) e' -> e' = e.
Proof.
  intros He [F1 F2]; apply Nat.le_antisymm.
  - apply F2, Occ_prefix, He.
  - apply Occ_le in F1; rewrite firstn_length_le in F1; lia.
Qed.

Lemma find_substring_all_ok W s h w : AInv W s h ->
  exists ps, find_substring_all h w = Some ps /\ strictly_increasing ps /\
    forall p, In p ps <-> occurs_at s w p.
Proof.
  intros HA; unfold find_substring_all.
  destruct (find_match_ok W s h HA w 0 [] (at_root W s h HA)) as [[v [-> Hv]]|[-> Hn]]; cbn in *.
  2:{ exists []; split; [reflexivity|]; split; [intros [|i] j ? ? _ ? _; discriminate|].
      intros p; split; [intros []|]; intros Hp; apply Hn; apply occurs_Occ in Hp; eexists; eauto. }
  unfold get_all_start_positions.
  pose proof Hv as [Hvn [Hvs Hve]].
  destruct (follow_ok W s h HA v Hvn (length h) [v] []) as [ids [-> [HND Hids]]].
  - repeat constructor; intros [].
  - intros x [<-|[]]; split; [exact Hvn|]; split; [apply suf_refl|now left].
  - now left.
  - intros x nx y _ _ [].
  - cbn; lia.
  - destruct (start_positions_ok h ids (length w)) as [ps [-> Hps]].
    + intros i Hi; apply Hids in Hi; destruct Hi as [Hi Hs].
      destruct (idx_node h i Hi) as [nd Hnd]; exists nd; split; [exact Hnd|].
      destruct (ok_fe _ _ _ _ _ (ai_node _ _ _ HA _ _ Hnd)) as [F1 _].
      apply Occ_le in F1; apply suf_length in Hs; apply suf_length in Hvs; lia.
    + destruct (dedup_loop_ok (sorted ps) []) as [D1 D2].
      * apply sorted_sorted.
      * constructor.
      * intros y x [].
      * eexists; split; [reflexivity|]; split; [now apply strongly_sorted_inc|].
        intros p; unfold dedup_sorted; rewrite D2.
        assert (HP : In p (sorted ps) <-> In p ps).
        { split; apply Permutation_in; [|symmetry]; apply sorted_perm. }
        rewrite HP, Hps, occurs_Occ; cbn; split.
        -- intros [[]|[i [nd [Hi [Hnd Hfe]]]]]; apply Hids in Hi; destruct Hi as [Hi Hs].
           destruct (ok_fe _ _ _ _ _ (ai_node _ _ _ HA _ _ Hnd)) as [F1 _]; rewrite Hfe in F1.
           apply Hve; eapply Occ_suf; eauto.
        -- intros Ho; right; set (e := p + length w) in *.
           assert (Hb : e <= length s) by (eapply Occ_bound; eauto).
           destruct (ai_surj _ _ _ HA _ (Canon_prefix s e Hb)) as [i [Hi HWi]].
           destruct (idx_node h i Hi) as [nd Hnd]; exists i, nd; split; [|split; [exact Hnd|]].
           ++ apply Hids; split; [exact Hi|]; rewrite HWi.
              apply Hve in Ho; destruct Ho as [_ Ho]; exact Ho.
           ++ pose proof (ok_fe _ _ _ _ _ (ai_node _ _ _ HA _ _ Hnd)) as F; rewrite HWi in F.
              now apply prefix_first in F.
Qed.
End Queries.
