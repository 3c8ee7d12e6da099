(** Histories of added versions. *)
From Coq Require Import ZArith Lia.
From Verif Require Import Base SpecSeq Changesets Serialize SpecSerialize
  Tokenizers SpecTokenizers TokenizersProofs TokenizersDiff Tree SpecTree TreeProofs TreeExact
  Versions SpecVersions VersionsPatch VersionsInv.

Section H.
Context {K : Type} {E : Teq K} {O : TeqOk K}.
Implicit Type h : list (adding K).

(** * Histories *)
Definition V_of h : K -> option (list Z) :=
  fold_left (fun V a => upd V (tag_of a) (bytes_of a)) h (fun _ => None).
Lemma V_of_snoc h a : V_of (h ++ [a]) = upd (V_of h) (tag_of a) (bytes_of a).
Proof. unfold V_of; now rewrite fold_left_app. Qed.
Lemma V_of_none h t : V_of h t = None <-> ~ added h t.
Proof.
  unfold added; induction h as [|a h IH] using rev_ind; [cbn; tauto|].
  rewrite V_of_snoc, map_app, in_app_iff; cbn. unfold upd.
  destruct (teq_spec (tag_of a) t) as [Ha|Ha]; [split; [discriminate|intros []; auto]|].
  rewrite IH; tauto.
Qed.
Lemma V_of_In h t b base : NoDup (map tag_of h) -> In (t, b, base) h -> V_of h t = Some b.
Proof.
  induction h as [|a h IH] using rev_ind; intros N Hin; [destruct Hin|].
  rewrite map_app in N. cbn in N. rewrite V_of_snoc; unfold upd.
  apply NoDup_remove in N as [N1 N2]. rewrite app_nil_r in N1, N2.
  apply in_app_or in Hin as [Hin|[->|[]]].
  - destruct (teq_spec (tag_of a) t) as [Ha|Ha]; [|now apply IH].
    exfalso; apply N2. rewrite Ha. apply (in_map tag_of) in Hin; exact Hin.
  - cbn; now rewrite teq_refl.
Qed.
Lemma V_of_some h t b : V_of h t = Some b -> exists base, In (t, b, base) h.
Proof.
  induction h as [|a h IH] using rev_ind; [discriminate|]. rewrite V_of_snoc; unfold upd.
  destruct (teq_spec (tag_of a) t) as [Ha|Ha].
  - intros [= Hb]. destruct a as [[t' b'] base]; cbn in *; subst. exists base; apply in_or_app; right; now left.
  - intros H; destruct (IH H) as [base Hin]. exists base; apply in_or_app; now left.
Qed.

Lemma In_added h t b base : In (t, b, base) h -> added h t.
Proof. intros H; apply (in_map tag_of) in H; exact H. Qed.

Lemma fresh_snoc k h a : fresh k (h ++ [a]) ->
  fresh k h /\ ~ added h (tag_of a) /\ base_of a <> Some (tag_of a) /\ storable k (bytes_of a).
Proof.
  intros [N F]. rewrite map_app in N; cbn in N. apply NoDup_remove in N as [N1 N2]. rewrite app_nil_r in N1, N2.
  apply Forall_app in F as [F1 F2]. destruct (Forall_inv F2) as [G1 G2]. repeat split; auto; apply G2.
Qed.
Lemma valid_snoc k h a : valid k (h ++ [a]) -> valid k h /\
  match base_of a with None => True | Some x => is_head h x end.
Proof.
  intros [F H]; split; [split|].
  - now apply fresh_snoc in F.
  - intros pre b post ->. apply (H pre b (post ++ [a])). now rewrite <- app_assoc.
  - apply (H h a []); reflexivity.
Qed.

Lemma is_head_added h t : is_head h t -> added h t.
Proof.
  intros [pre [b [base [post [-> _]]]]]. unfold added; rewrite map_app; apply in_or_app; right; now left.
Qed.
Lemma is_head_snoc h a t : ~ added h (tag_of a) -> base_of a <> Some (tag_of a) ->
  (is_head (h ++ [a]) t <-> t = tag_of a \/ (is_head h t /\ base_of a <> Some t)).
Proof.
  intros Hn Hb; split.
  - intros [pre [b [base [post [He Hp]]]]]. destruct post as [|x post _] using rev_ind.
    + apply app_inj_tail in He as [-> ->]. now left.
    + right. rewrite app_comm_cons, app_assoc in He. apply app_inj_tail in He as [-> ->].
      rewrite map_app, in_app_iff in Hp; cbn in Hp.
      split; [exists pre, b, base, post; split; auto|]. tauto.
  - intros [->|[[pre [b [base [post [-> Hp]]]]] Ht]].
    + destruct a as [[t b] base]. exists h, b, base, []; split; [reflexivity|intros []].
    + exists pre, b, base, (post ++ [a]). split; [now rewrite <- app_assoc|].
      rewrite map_app, in_app_iff; cbn. tauto.
Qed.

Variable re_w : Z -> bool.
Variable tk : tkind.
Variables HS DS : store K.
Variable TR : tree_impl K.
Variable HL : store_law HS.
Variable DL : store_law DS.
Variable TL : tree_law TR.
Context {TX : Exact TL}.
Notation vstate := (@vstate K HS DS TR).
Notation run := (run re_w tk HS DS TR).
Notation add := (add re_w tk HS DS TR).
Notation add_state := (add_state re_w tk HS DS TR).
Notation add_result := (add_result re_w tk HS DS TR).
Notation add_trace := (add_trace re_w tk HS DS TR).
Notation get := (get re_w tk HS DS TR).
Notation core := (core re_w tk HS DS TR HL DL TL).
Notation tidy := (tidy HS DS TR HL DL).

Record hist_inv h (v : vstate) (s : nodes K) : Prop := {
  h_core : core None (V_of h) v s;
  h_tidy : tidy None v s;
  h_base : forall t b base, In (t, b, base) h -> exists n, dget s t = Some n /\ Tree.base n = base;
  h_head : forall t n, dget s t = Some n -> (parent n = None <-> is_head h t);
  h_child : forall c q, child_of s c q -> exists b x, In (q, b, Some x) h;
  h_keys : dkeys s = map tag_of h;
  h_order : forall t n, dget s t = Some n -> nth_error (map tag_of h) (order_id n) = Some t
}.

Lemma heads_view h v s t : hist_inv h v s -> (view HL (heads v) t <> None <-> is_head h t).
Proof.
  intros I; split.
  - intros H. destruct (proj1 (h_tidy _ _ _ I t ltac:(discriminate)) H) as [n [Hn Hp]].
    now apply (h_head _ _ _ I t n).
  - intros H. pose proof (is_head_added _ _ H) as Ha.
    destruct (dget s t) as [n|] eqn:Hn.
    + rewrite (c_head _ _ _ _ _ _ _ _ _ _ _ _ (h_core _ _ _ I) t n Hn); [|now apply (h_head _ _ _ I t n)].
      rewrite V_of_none; tauto.
    + apply (c_dom _ _ _ _ _ _ _ _ _ _ _ _ (h_core _ _ _ I)) in Hn. apply V_of_none in Hn; contradiction.
Qed.
Lemma known_added h v s t : hist_inv h v s -> (dget s t = None <-> ~ added h t).
Proof. intros I. rewrite (c_dom _ _ _ _ _ _ _ _ _ _ _ _ (h_core _ _ _ I)). apply V_of_none. Qed.

Lemma is_head_dec h t v s : hist_inv h v s -> is_head h t \/ ~ is_head h t.
Proof.
  intros I. rewrite <- (heads_view _ _ _ _ I). destruct (view HL (heads v) t); [left; discriminate|right; tauto].
Qed.

(** what one more add does *)
Lemma hist_step h v s a : hist_inv h v s -> fresh tk (h ++ [a]) ->
  (tk <> KLine \/ match base_of a with Some x => forall p, down s x p -> length p <= 2 | None => True end \/
   calm_edges re_w tk (V_of h) s) ->
  (exists s', hist_inv (h ++ [a]) (add_state v a) s' /\
    ((match base_of a with None => True | Some x => ~ is_head h x end /\
      forall c q, child_of s' c q <-> child_of s c q) \/
     exists x p, base_of a = Some x /\ is_head h x /\ (down s x p /\ (rep_ranks TL -> split_way s 1 x p)) /\
      forall c q, child_of s' c q <->
        (q = tag_of a /\ (c = x \/ c = last p x)) \/ (c <> x /\ c <> last p x /\ child_of s c q))) /\
  (match base_of a with None => True | Some x => is_head h x end -> add_result v a = Ok tt) /\
  (match base_of a with None => False | Some x => ~ is_head h x end ->
    exists e, add_result v a = Err e /\ 
      match base_of a with Some x => added h x -> e = KeyError | None => True end).
Proof.
  intros I F Hk. destruct (fresh_snoc _ _ _ F) as [_ [Hna [Hb Sb]]].
  destruct a as [[tag b] base]; cbn [tag_of bytes_of base_of fst snd] in *.
  pose proof (h_core _ _ _ I) as C. pose proof (h_tidy _ _ _ I) as T.
  pose proof (proj2 (V_of_none h tag) Hna) as Hv.
  assert (HV : V_of (h ++ [(tag, b, base)]) = upd (V_of h) tag b) by apply V_of_snoc.
  assert (Ord : forall t n, dget (fst (m_add tag base s)) t = Some n ->
      nth_error (map tag_of (h ++ [(tag, b, base)])) (order_id n) = Some t).
  { intros t n. unfold m_add; cbn [fst]. rewrite dget_dset, map_app. destruct (teq_spec tag t) as [<-|Ht].
    - intros [= <-]. cbn [order_id].
      replace (length s) with (length (map tag_of h)) by (rewrite <- (h_keys _ _ _ I); apply map_length).
      rewrite nth_error_app2, Nat.sub_diag by lia; reflexivity.
    - intros Hn. rewrite nth_error_app1; [now apply (h_order _ _ _ I)|].
      apply nth_error_Some. rewrite (h_order _ _ _ I t n Hn); discriminate. }
  assert (Plain : forall v2, core None (upd (V_of h) tag b) v2 (fst (m_add tag base s)) ->
     tidy None v2 (fst (m_add tag base s)) ->
     (match base with None => True | Some x => ~ is_head h x end) ->
     hist_inv (h ++ [(tag, b, base)]) v2 (fst (m_add tag base s)) /\
     forall c q, child_of (fst (m_add tag base s)) c q <-> child_of s c q).
  { intros v2 C2 T2 Hbase.
    destruct (add_gets s tag base) as [G Gk].
    { now apply (known_added h v s). }
    assert (Hch : forall c q, child_of (fst (m_add tag base s)) c q <-> child_of s c q).
    { intros c q; unfold child_of. rewrite G. destruct (teq_spec tag c) as [<-|Hc]; [|reflexivity].
      split; intros [n [Hn Hp]]; [injection Hn as <-; discriminate|].
      apply (c_dom _ _ _ _ _ _ _ _ _ _ _ _ C) in Hv; congruence. }
    split; [|exact Hch]. split.
    - exact (eq_ind_r (fun V => core None V _ _) C2 HV).
    - exact T2.
    - intros t b' base' Hin. rewrite G. apply in_app_or in Hin as [Hin|[Hin|[]]].
      + destruct (teq_spec tag t) as [<-|]; [exfalso; apply Hna; apply (in_map tag_of) in Hin; exact Hin|].
        now apply (h_base _ _ _ I t b').
      + injection Hin as -> -> ->. rewrite teq_refl. eexists; split; reflexivity.
    - intros t n Hn. rewrite is_head_snoc by assumption. cbn [tag_of base_of fst snd].
      rewrite G in Hn. destruct (teq_spec tag t) as [<-|Ht].
      + injection Hn as <-. split; [auto|reflexivity].
      + rewrite (h_head _ _ _ I t n Hn). split.
        * intros Hh; right; split; [exact Hh|]. intros ->. contradiction.
        * intros [Hh|[Hh _]]; [congruence|exact Hh].
    - intros c q Hc. apply Hch in Hc. destruct (h_child _ _ _ I c q Hc) as [b' [x Hin]].
      exists b', x; apply in_or_app; now left.
    - rewrite Gk, (h_keys _ _ _ I), map_app; reflexivity.
    - now apply Ord. }
  destruct base as [x|].
  - destruct (is_head_dec h x v s I) as [Hx|Hx].
    + destruct (add_accepted re_w tk HS DS TR HL DL TL (V_of h) v s tag b x C T Hv Sb)
        as [tr [v' [s' [Ha [C' [T' [[nt [Hnt [Hpt Hbt]]] [[nx [Hnx Hpx]] [Hrest [sp [_ [_ [[p [Hway Hlp]] [Hch [_ [_ Or]]]]]]]]]]]]]]]].
      { now apply (heads_view h v s). } { exact Hk. }
      split; [|split].
      * exists s'. cbn [Versions.add_state]. rewrite Ha; cbn [fst snd].
        split; [|right; exists x, p; rewrite Hlp; auto]. split.
        -- exact (eq_ind_r (fun V => core None V _ _) C' HV).
        -- exact T'.
        -- intros t b' base' Hin. apply in_app_or in Hin as [Hin|[Hin|[]]].
           ++ destruct (h_base _ _ _ I t b' base' Hin) as [n [Hn Hbn]].
              assert (Htt : t <> tag) by (intros ->; apply Hna; apply (in_map tag_of) in Hin; exact Hin).
              destruct (dget s' t) as [m|] eqn:Hm.
              ** destruct (Hrest t m Htt Hm) as [n' [Hn' [Hbn' _]]]. exists m; split; [reflexivity|congruence].
              ** apply (c_dom _ _ _ _ _ _ _ _ _ _ _ _ C') in Hm. unfold upd in Hm.
                 destruct (teq tag t); [discriminate|].
                 apply (c_dom _ _ _ _ _ _ _ _ _ _ _ _ C) in Hm. congruence.
           ++ assert (Ht : t = tag) by congruence. assert (Hb' : base' = Some x) by congruence. subst t base'. exists nt; auto.
        -- intros t m Hm. rewrite is_head_snoc by assumption. cbn [tag_of base_of fst snd].
           destruct (teq_spec t tag) as [->|Ht].
           ++ assert (m = nt) by congruence; subst. split; auto.
           ++ destruct (Hrest t m Ht Hm) as [n [Hn [_ [P1 P2]]]].
              pose proof (h_head _ _ _ I t n Hn) as Hh.
              destruct (teq_spec t x) as [->|Htx].
              ** assert (m = nx) by congruence; subst m. rewrite Hpx. split; [discriminate|].
                 intros [Hc|[_ Hc]]; congruence.
              ** destruct (parent n) eqn:Hpn.
                 --- split; [intros Hp; exfalso; apply (P2 ltac:(discriminate)); exact Hp|].
                     intros [Hc|[Hc _]]; [congruence|]. apply Hh in Hc; discriminate.
                 --- split; [|intros _; now apply P1]. intros _; right; split; [now apply Hh|congruence].
        -- intros c q Hc. apply Hch in Hc as [[-> _]|[_ [_ Hc]]].
           ++ exists b, x; apply in_or_app; right; now left.
           ++ destruct (h_child _ _ _ I c q Hc) as [b' [x' Hin]]. exists b', x'; apply in_or_app; now left.
        -- rewrite (proj1 Or). unfold m_add; cbn [fst]. rewrite dkeys_dset. unfold dmem.
           rewrite (proj2 (known_added h v s tag I) Hna), (h_keys _ _ _ I), map_app; reflexivity.
        -- intros t n Hn. pose proof (proj2 Or t) as Ht. rewrite Hn in Ht.
           destruct (dget (fst (m_add tag (Some x) s)) t) as [m|] eqn:Hm; [|discriminate].
           injection Ht as ->. now apply Ord.
      * intros _. cbn [Versions.add_result]. now rewrite Ha.
      * tauto.
    + destruct (add_rejected re_w tk HS DS TR HL DL TL (V_of h) v s tag b x C T Hv Sb)
        as [v1 [v2 [e [Ha [_ [C2 [T2 [He _]]]]]]]].
      { congruence. }
      { destruct (view HL (heads v) x) eqn:Hvx; [|reflexivity]. exfalso; apply Hx. apply (heads_view h v s); [exact I|congruence]. }
      split; [|split].
      * exists (fst (m_add tag (Some x) s)). cbn [Versions.add_state]. rewrite Ha; cbn [fst snd].
        destruct (Plain v2 C2 T2 Hx) as [P1 P2]. split; [exact P1|]. left; auto.
      * tauto.
      * intros _. exists e. cbn [Versions.add_result]; rewrite Ha; cbn [fst snd]. split; [reflexivity|].
        intros Hax; apply He. rewrite V_of_none; tauto.
  - destruct (add_none re_w tk HS DS TR HL DL TL (V_of h) v s tag b C T Hv Sb) as [v1 [v2 [Ha [_ [C2 T2]]]]].
    split; [|split; [|tauto]].
    + exists (fst (m_add tag None s)). cbn [Versions.add_state]; rewrite Ha; cbn [fst snd].
      destruct (Plain v2 C2 T2 Logic.I) as [P1 P2]. split; [exact P1|]. left; auto.
    + intros _. cbn [Versions.add_result]; now rewrite Ha.
Qed.

Lemma run_snoc h a v : run v (h ++ [a]) = add_state (run v h) a.
Proof. unfold Versions.run; now rewrite fold_left_app. Qed.

Lemma hist_nil : hist_inv [] v_empty [].
Proof.
  split; [apply core_empty|apply tidy_empty|intros ? ? ? []|discriminate|intros c q [n [H _]]; discriminate|reflexivity|discriminate].
Qed.

Theorem hist_ok h : tk <> KLine -> fresh tk h -> exists s, hist_inv h (run v_empty h) s.
Proof.
  intros Hk. induction h as [|a h IH] using rev_ind; intros F.
  - exists []; apply hist_nil.
  - destruct (fresh_snoc _ _ _ F) as [F' _]. destruct (IH F') as [s I].
    rewrite run_snoc. destruct (hist_step h _ s a I F (or_introl Hk)) as [[s' [I' _]] _]. eauto.
Qed.

(** * The line tokenizer, on branches of at most three versions *)
Definition line_inv h (s : nodes K) : Prop :=
  (forall c q d, child_of s c q -> ~ child_of s d c) /\
  (forall t b c, In (t, b, None) h -> ~ child_of s c t) /\
  (forall t b x bx c, In (t, b, Some x) h -> In (x, bx, None) h -> child_of s c t -> c = x).

Lemma down_two h s t p : line_inv h s -> down s t p -> length p <= 2.
Proof.
  intros [L _] H; inversion H as [|? c l Hc Hd]; subst; [cbn; lia|].
  inversion Hd as [|? d l' Hc' _]; subst; [cbn; lia|]. exfalso; exact (L _ _ _ Hc Hc').
Qed.
Lemma up_two h s t l : line_inv h s -> up s t l -> length l <= 2.
Proof.
  intros L H. destruct (up_down _ _ _ H) as [r [n [_ [_ [Hd _]]]]]. apply (down_two h) in Hd; [|exact L].
  now rewrite rev_length in Hd.
Qed.
Lemma way_two h s x p : tree_ok s -> line_inv h s -> split_way s 1 x p ->
  (p = [x] /\ forall c, ~ child_of s c x) \/ (exists d, p = [x; d] /\ child_of s d x).
Proof.
  intros [[N [F C]] M] [L _] H.
  inversion H as [? ? n Hx Hh|? ? n d l Hx Hd [nd [Hdd [Hpd _]]] Hw]; subst.
  - left; split; [reflexivity|]. intros c [nc [Hc Hp]]. destruct (M x n Hx) as [hh [z [Hm [He _]]]].
    assert (Hin : In c (children n)) by (apply (C x n Hx); exists nc; auto).
    pose proof (child_metrics_bound _ _ _ _ Hm _ _ Hin Hc).
    destruct (M c nc Hc) as [h' [z' [_ [He' _]]]]. lia.
  - right. exists d. assert (Hcd : child_of s d x) by (exists nd; auto). split; [|exact Hcd].
    inversion Hw as [|? ? n' e l' ? ? [ne [He [Hpe _]]] ?]; subst; [reflexivity|].
    exfalso; apply (L d x e Hcd). exists ne; auto.
Qed.
Lemma valid_base_added k h t b x : valid k h -> In (t, b, Some x) h -> added h x.
Proof.
  intros [_ V] Hin. apply in_split in Hin as [pre [post ->]].
  specialize (V pre (t, b, Some x) post eq_refl). cbn in V. apply is_head_added in V.
  unfold added in *. rewrite map_app, in_app_iff. now left.
Qed.
Lemma added_In h t : added h t -> exists b base, In (t, b, base) h.
Proof.
  unfold added. rewrite in_map_iff. intros [[[t' b] base] [Ht Hin]]. cbn in Ht; subst. eauto.
Qed.

Theorem hist_line h : valid tk h -> short h -> exists s, hist_inv h (run v_empty h) s /\ line_inv h s.
Proof.
  induction h as [|a h IH] using rev_ind; intros Va Sh.
  - exists []; split; [apply hist_nil|]. split; [|split].
    + intros c q d [n [H _]]; discriminate.
    + intros ? ? ? [].
    + intros ? ? ? ? ? [].
  - destruct (valid_snoc _ _ _ Va) as [Va' Hbase]. destruct Va as [F _].
    assert (Sh' : short h).
    { intros [t1 [b2 [t2 [b3 [t3 [b4 [t4 [A [B D]]]]]]]]]. apply Sh.
      exists t1, b2, t2, b3, t3, b4, t4. rewrite !in_app_iff. auto. }
    destruct (IH Va' Sh') as [s [I L]]. pose proof L as [L1 [L2 L3]].
    destruct (fresh_snoc _ _ _ F) as [F' [Hna [Hb _]]].
    destruct (hist_step h _ s a I F) as [[s' [I' Hch]] _].
    { right; left. destruct (base_of a); [|exact Logic.I]. intros p Hp. now apply (down_two h) in Hp. }
    exists s'. rewrite run_snoc. split; [exact I'|].
    destruct a as [[tag c0] base]; cbn [tag_of base_of fst snd] in *.
    assert (Old : forall t b x, In (t, b, x) (h ++ [(tag, c0, base)]) -> t <> tag -> In (t, b, x) h).
    { intros t b x Hin Ht. apply in_app_or in Hin as [Hin|[[= Hq _ _]|[]]]; [exact Hin|congruence]. }
    assert (New : forall b x, In (tag, b, x) (h ++ [(tag, c0, base)]) -> x = base).
    { intros b x Hin. apply in_app_or in Hin as [Hin|[[= _ Hq]|[]]]; [|auto].
      exfalso; apply Hna; now apply In_added in Hin. }
    assert (Notag : forall c q, child_of s c q -> c <> tag /\ q <> tag).
    { intros c q Hc. split; intros ->.
      - destruct Hc as [n [Hn _]]. apply (known_added h _ s tag I) in Hna. congruence.
      - apply (child_known re_w tk HS DS TR HL DL TL (V_of h) (run v_empty h) s None) in Hc; [|apply I].
        apply (known_added h _ s tag I) in Hna. contradiction. }
    assert (Third : forall t b y bx c, In (t, b, Some y) (h ++ [(tag, c0, base)]) ->
        In (y, bx, None) (h ++ [(tag, c0, base)]) -> t <> tag -> child_of s c t -> c = y).
    { intros t b y bx c Hin Hin' Ht Hc. pose proof (Old _ _ _ Hin Ht) as Hin2.
      destruct (teq_spec y tag) as [->|Hy].
      - exfalso; apply Hna. eapply valid_base_added; eauto.
      - eapply L3; [exact Hin2|apply (Old _ _ _ Hin' Hy)|exact Hc]. }
    destruct Hch as [[Hbad Hch]|[x [p [Hx [Hhx [Hw Hch]]]]]].
    + destruct base as [x|]; [contradiction|].
      split; [|split].
      * intros c q d Hc Hd. apply Hch in Hc, Hd. exact (L1 _ _ _ Hc Hd).
      * intros t b c Hin Hc. apply Hch in Hc. eapply L2; [|exact Hc]. eapply Old; [exact Hin|apply (Notag _ _ Hc)].
      * intros t b x bx c Hin Hin' Hc. apply Hch in Hc. eapply Third; eauto. apply (Notag _ _ Hc).
    + subst base. pose proof (c_rep _ _ _ _ _ _ _ _ _ _ _ _ (h_core _ _ _ I)) as R.
      pose proof (rep_ok _ TL _ _ R) as T.
      assert (Hxt : x <> tag) by congruence.
      destruct (added_In _ _ (is_head_added _ _ Hhx)) as [bx [basex Hinx]].
      assert (Only : forall c, child_of s c x -> c = last p x).
      { intros c Hc. destruct (way_two h s x p T L (proj2 Hw exact_ranks)) as [[_ Hno]|[d [-> Hd]]]; [exfalso; eapply Hno; eauto|].
        cbn [last]. destruct basex as [y|]; [|exfalso; eapply L2; eauto].
        destruct (added_In _ _ (valid_base_added _ _ _ _ _ Va' Hinx)) as [by' [[z|] Hiny]].
        - exfalso; apply Sh. exists z, by', y, bx, x, c0, tag. rewrite !in_app_iff. cbn. auto.
        - rewrite (L3 x bx y by' c Hinx Hiny Hc). symmetry. eapply L3; eauto. }
      assert (Leaf : forall c, child_of s c (last p x) -> last p x = x).
      { intros c Hc. destruct (way_two h s x p T L (proj2 Hw exact_ranks)) as [[-> _]|[d [-> Hd]]]; [reflexivity|].
        exfalso. cbn in Hc. exact (L1 _ _ _ Hd Hc). }
      split; [|split].
      * intros c q d Hc Hd. apply Hch in Hd as [[-> _]|[Hd1 [Hd2 Hd]]].
        -- apply Hch in Hc as [[_ [Hc|Hc]]|[_ [_ Hc]]]; [congruence| |exact (proj1 (Notag _ _ Hc) eq_refl)].
           destruct (way_two h s x p T L (proj2 Hw exact_ranks)) as [[-> _]|[e [-> He]]]; cbn in Hc; [congruence|].
           exact (proj1 (Notag _ _ He) (eq_sym Hc)).
        -- apply Hch in Hc as [[-> [-> | ->]]|[_ [_ Hc]]].
           ++ apply Hd2, Only, Hd.
           ++ pose proof (Leaf _ Hd) as Hl. rewrite Hl in Hd. apply Hd2, Only, Hd.
           ++ exact (L1 _ _ _ Hc Hd).
      * intros t b c Hin Hc. destruct (teq_spec t tag) as [->|Ht].
        -- apply New in Hin; discriminate.
        -- apply Hch in Hc as [[Hc _]|[_ [_ Hc]]]; [contradiction|]. eapply L2; [eapply Old; eauto|exact Hc].
      * intros t b y by' c Hin Hin' Hc. apply Hch in Hc as [[-> Hc]|[_ [_ Hc]]].
        -- apply New in Hin as [= ->]. destruct Hc as [Hc|Hc]; [exact Hc|]. subst c.
           pose proof (Old _ _ _ Hin' Hxt) as Hin2.
           destruct (way_two h s x p T L (proj2 Hw exact_ranks)) as [[-> _]|[e [-> He]]]; [reflexivity|]. exfalso; eapply L2; eauto.
        -- eapply Third; eauto. apply (Notag _ _ Hc).
Qed.

(** * Consequences *)
Lemma inv_get h v s t b base l : hist_inv h v s -> fresh tk h -> In (t, b, base) h ->
  up s t l -> tk <> KLine \/ length l <= 2 \/ calm_edges re_w tk (V_of h) s -> get v t = Ok (Some b).
Proof.
  intros I [N _] Hin Hu Hk. apply (get_ok re_w tk HS DS TR HL DL TL None (V_of h) v s t b l); auto.
  - apply I.
  - now apply V_of_In with base.
  - discriminate.
Qed.
Lemma inv_up h v s t : hist_inv h v s -> added h t -> exists l, up s t l.
Proof.
  intros I Ha. apply (ok_forest re_w tk HS DS TR HL DL TL (V_of h) v s None); [apply I|].
  rewrite V_of_none; tauto.
Qed.

Theorem retrieval h : tk <> KLine -> fresh tk h ->
  (forall t b base, In (t, b, base) h -> get (run v_empty h) t = Ok (Some b)) /\
  (forall t, ~ added h t -> get (run v_empty h) t = Ok None).
Proof.
  intros Hk F. destruct (hist_ok h Hk F) as [s I]. split.
  - intros t b base Hin. destruct (inv_up h _ s t I (In_added _ _ _ _ Hin)) as [l Hl].
    apply (inv_get h _ s t b base l I F Hin Hl); auto.
  - intros t Hn. apply (get_none re_w tk HS DS TR HL DL TL None (V_of h) _ s); [apply I|now apply V_of_none].
Qed.

Theorem retrieval_short h : valid tk h -> short h ->
  (forall t b base, In (t, b, base) h -> get (run v_empty h) t = Ok (Some b)) /\
  (forall t, ~ added h t -> get (run v_empty h) t = Ok None).
Proof.
  intros Va Sh. destruct (hist_line h Va Sh) as [s [I L]]. split.
  - intros t b base Hin. destruct (inv_up h _ s t I (In_added _ _ _ _ Hin)) as [l Hl].
    apply (inv_get h _ s t b base l I (proj1 Va) Hin Hl). right; left. eapply up_two; eauto.
  - intros t Hn. apply (get_none re_w tk HS DS TR HL DL TL None (V_of h) _ s); [apply I|now apply V_of_none].
Qed.

Theorem results h a : tk <> KLine -> fresh tk (h ++ [a]) ->
  (match base_of a with None => True | Some x => is_head h x end -> add_result (run v_empty h) a = Ok tt) /\
  (match base_of a with None => False | Some x => ~ is_head h x end ->
    exists e, add_result (run v_empty h) a = Err e /\
      match base_of a with Some x => added h x -> e = KeyError | None => True end).
Proof.
  intros Hk F. destruct (fresh_snoc _ _ _ F) as [F' _]. destruct (hist_ok h Hk F') as [s I].
  destruct (hist_step h _ s a I F (or_introl Hk)) as [_ H]; exact H.
Qed.

Theorem stored_once h : tk <> KLine -> fresh tk h ->
  let v := run v_empty h in
  (forall t, s_mem HS (heads v) t = true <-> is_head h t) /\
  (forall t, s_mem DS (diffs v) t = true <-> added h t /\ ~ is_head h t) /\
  (forall t b base, In (t, b, base) h -> is_head h t -> s_get HS (heads v) t = Ok b).
Proof.
  intros Hk F v. destruct (hist_ok h Hk F) as [s I]. fold v in I. split; [|split].
  - intros t. rewrite (view_mem _ HL), <- (heads_view h v s t I).
    destruct (view HL (heads v) t); split; congruence.
  - intros t. rewrite (view_mem _ DL). split.
    + intros H. destruct (proj2 (h_tidy _ _ _ I t ltac:(discriminate))) as [n [Hn Hp]].
      { destruct (view DL (diffs v) t); [discriminate|discriminate H]. }
      split.
      * destruct (V_of h t) as [b|] eqn:Hv.
        -- apply V_of_some in Hv as [base Hin]. now apply In_added in Hin.
        -- apply (c_dom _ _ _ _ _ _ _ _ _ _ _ _ (h_core _ _ _ I)) in Hv; congruence.
      * rewrite <- (h_head _ _ _ I t n Hn). exact Hp.
    + intros [Ha Hh]. destruct (dget s t) as [n|] eqn:Hn; [|apply (known_added h v s) in Hn; auto; contradiction].
      destruct (parent n) as [q|] eqn:Hp; [|exfalso; apply Hh; exact (proj1 (h_head _ _ _ I t n Hn) Hp)].
      assert (Hq : dget s q <> None).
      { apply (child_known re_w tk HS DS TR HL DL TL (V_of h) v s None t q); [apply I|exists n; auto]. }
      destruct (V_of h q) as [bq|] eqn:Bq; [|apply (c_dom _ _ _ _ _ _ _ _ _ _ _ _ (h_core _ _ _ I)) in Bq; contradiction].
      destruct (V_of h t) as [bt|] eqn:Bt; [|apply V_of_none in Bt; contradiction].
      destruct (c_diff _ _ _ _ _ _ _ _ _ _ _ _ (h_core _ _ _ I) t n q bq bt Hn Hp Bq Bt) as [d [Hd _]]; [discriminate|].
      now rewrite Hd.
  - intros t b base Hin Hh. rewrite (view_get _ HL).
    destruct (dget s t) as [n|] eqn:Hn; [|apply (known_added h v s) in Hn; auto; apply In_added in Hin; contradiction].
    rewrite (c_head _ _ _ _ _ _ _ _ _ _ _ _ (h_core _ _ _ I) t n Hn); [|now apply (h_head _ _ _ I t n Hn)].
    now rewrite (V_of_In h t b base (proj1 F) Hin).
Qed.

Theorem base_reported h : tk <> KLine -> fresh tk h ->
  let v := run v_empty h in
  (forall t, contains HS DS TR v t = true <-> added h t) /\
  (forall t b base, In (t, b, base) h -> tr_base TR (tree v) t = Ok base).
Proof.
  intros Hk F v. destruct (hist_ok h Hk F) as [s I]. fold v in I.
  pose proof (c_rep _ _ _ _ _ _ _ _ _ _ _ _ (h_core _ _ _ I)) as R. split.
  - intros t. unfold contains. rewrite (rep_contains _ TL _ s t R). unfold dmem.
    pose proof (known_added h v s t I) as Ka. destruct (dget s t); split; try congruence.
    + intros _. destruct (V_of h t) eqn:Hv; [|apply V_of_none in Hv; apply Ka in Hv; discriminate].
      apply V_of_some in Hv as [base Hin]; now apply In_added in Hin.
    + intros Ha. exfalso; now apply (proj1 Ka eq_refl).
  - intros t b base Hin. destruct (h_base _ _ _ I t b base Hin) as [n [Hn <-]].
    now apply (rep_base _ TL _ s).
Qed.

(** the literal part of a stored diff is no longer than the version itself *)
Definition literal_bytes (items : list (pitem Z)) : nat :=
  list_sum (map (fun i => match i with PData d => length d | PSlice _ => 0 end) items).
Lemma literal_cons i items : literal_bytes (i :: items) =
  match i with PData d => length d | PSlice _ => 0 end + literal_bytes items.
Proof. reflexivity. Qed.
Lemma trimmed_literal items : literal_bytes (trimmed items) = literal_bytes items.
Proof.
  unfold trimmed; induction items as [|i items IH]; [reflexivity|]. cbn [filter].
  destruct (idle i) eqn:Hi; cbn [negb]; rewrite !literal_cons, IH; [|reflexivity].
  destruct i as [d|[a [b|]]]; cbn in *; try discriminate; [destruct d; [reflexivity|discriminate]|reflexivity].
Qed.
Lemma patch_literal k bq bt items : patch_between items bq bt -> k = length (concat bt) -> literal_bytes items <= k.
Proof.
  intros [[tp [-> [<- _]]] _] ->. unfold apply, join_changes.
  induction tp as [|i tp IH]; [cbn; lia|]. cbn [map]. rewrite literal_cons, concat_cons, concat_app, app_length.
  destruct i as [ts|s]; cbn [flat]; lia.
Qed.

Theorem info_reported h dg hg : tk <> KLine -> fresh tk h ->
  s_dot_get DS = Some dg -> s_dot_get HS = Some hg ->
  (forall d k, dg d k = view DL d k) -> (forall d k, hg d k = view HL d k) ->
  let v := run v_empty h in
  (forall t b base, In (t, b, base) h ->
     exists tokens changes, version_info HS DS TR v t = Ok (Some (base, tokens, changes)) /\
       tokens <= length b /\ (is_head h t -> tokens = length b /\ changes = 0)) /\
  (forall t, ~ added h t -> version_info HS DS TR v t = Ok None).
Proof.
  intros Hk F HD HH Ed Eh v. destruct (hist_ok h Hk F) as [s I]. fold v in I.
  destruct (stored_once h Hk F) as [S1 [S2 S3]]. fold v in S1, S2, S3.
  destruct (base_reported h Hk F) as [_ BR]. fold v in BR.
  unfold version_info. rewrite HD, HH. split.
  - intros t b base Hin. rewrite Ed, Eh.
    specialize (S1 t); specialize (S2 t); specialize (S3 t b base Hin); specialize (BR t b base Hin).
    rewrite (view_mem _ HL) in S1. rewrite (view_mem _ DL) in S2. rewrite (view_get _ HL) in S3.
    destruct (view DL (diffs v) t) as [d|] eqn:Hd.
    + destruct (proj1 S2 eq_refl) as [Ha Hh].
      destruct (dget s t) as [n|] eqn:Hn; [|apply (known_added h v s) in Hn; auto; contradiction].
      destruct (parent n) as [q|] eqn:Hp; [|exfalso; apply Hh; exact (proj1 (h_head _ _ _ I t n Hn) Hp)].
      assert (Hq : dget s q <> None).
      { apply (child_known re_w tk HS DS TR HL DL TL (V_of h) v s None t q); [apply I|exists n; auto]. }
      destruct (V_of h q) as [bq|] eqn:Bq; [|apply (c_dom _ _ _ _ _ _ _ _ _ _ _ _ (h_core _ _ _ I)) in Bq; contradiction].
      pose proof (V_of_In h t b base (proj1 F) Hin) as Bt.
      destruct (c_diff _ _ _ _ _ _ _ _ _ _ _ _ (h_core _ _ _ I) t n q bq b Hn Hp Bq Bt) as [d' [Hd' [items [Hm Hs]]]]; [discriminate|].
      assert (d' = d) by congruence; subst d'.
      pose proof (c_ok _ _ _ _ _ _ _ _ _ _ _ _ (h_core _ _ _ I) q bq Bq) as Sq.
      pose proof (c_ok _ _ _ _ _ _ _ _ _ _ _ _ (h_core _ _ _ I) t b Bt) as St.
      destruct (texts_encodable re_w tk (CBytes bq) (proj1 Sq)) as [tq Htq].
      destruct (texts_encodable re_w tk (CBytes b) (proj1 St)) as [tb Htb].
      destruct (make_changeset_ok re_w tk bq b tq tb Sq St Htq Htb) as [items' [Hm' PB]].
      assert (items' = items) by congruence; subst items'.
      pose proof PB as [_ [d' [Hs' Hde]]]. assert (d' = d) by congruence; subst d'.
      rewrite Hde; cbn [bind]. rewrite BR; cbn [bind].
      eexists _, _. split; [reflexivity|]. split; [|contradiction].
      fold (literal_bytes (trimmed items)). rewrite trimmed_literal.
      apply (patch_literal _ tq tb); [exact PB|]. now rewrite (texts_concat _ _ _ _ Htb).
    + assert (Hh : is_head h t).
      { destruct (is_head_dec h t v s I) as [Hh|Hh]; [exact Hh|].
        discriminate (proj2 S2 (conj (In_added _ _ _ _ Hin) Hh)). }
      destruct (view HL (heads v) t) as [b'|]; [|discriminate (S3 Hh)].
      injection (S3 Hh) as ->. cbn [bind]. rewrite BR; cbn [bind].
      eexists _, _. split; [reflexivity|]. split; [lia|auto].
  - intros t Ht. rewrite Ed, Eh.
    specialize (S1 t); specialize (S2 t).
    rewrite (view_mem _ HL) in S1. rewrite (view_mem _ DL) in S2.
    destruct (view DL (diffs v) t); [exfalso; apply Ht; now apply S2|].
    destruct (view HL (heads v) t); [exfalso; apply Ht, is_head_added; now apply S1|reflexivity].
Qed.

(** * Interruptions *)
Theorem interruption h a : tk <> KLine -> fresh tk (h ++ [a]) ->
  let v := run v_empty h in
  forall i w, nth_error (add_trace v a) i = Some w ->
  i <> 2 \/ length (add_trace v a) <= 5 ->
  forall t b base, In (t, b, base) h -> get w t = Ok (Some b).
Proof.
  intros Hk F v i w Hi Hi2 t b base Hin.
  destruct (fresh_snoc _ _ _ F) as [F' [Hna [Hb Sb]]]. destruct (hist_ok h Hk F') as [s I]. fold v in I.
  destruct a as [[tag c] bs]; cbn [tag_of bytes_of base_of fst snd] in *.
  pose proof (h_core _ _ _ I) as C. pose proof (h_tidy _ _ _ I) as T.
  pose proof (proj2 (V_of_none h tag) Hna) as Hv.
  pose proof (V_of_In h t b base (proj1 F') Hin) as Bt.
  assert (Bt' : upd (V_of h) tag c t = Some b).
  { unfold upd. destruct (teq_spec tag t) as [<-|]; [exfalso; apply Hna; now apply In_added in Hin|exact Bt]. }
  assert (Fin : forall V s', core None V w s' -> V t = Some b -> get w t = Ok (Some b)).
  { intros V s' C' HV'. destruct (ok_forest re_w tk HS DS TR HL DL TL V w s' None C' t) as [l Hl]; [congruence|].
    apply (get_ok re_w tk HS DS TR HL DL TL None V w s' t b l); auto. discriminate. }
  unfold Versions.add_trace in *.
  destruct bs as [x|].
  - destruct (is_head_dec h x v s I) as [Hx|Hx].
    + destruct (add_accepted re_w tk HS DS TR HL DL TL (V_of h) v s tag c x C T Hv Sb)
        as [tr [v' [s' [Ha [_ [_ [_ [_ [_ [sp [L5 [L8 [_ [_ [Good _]]]]]]]]]]]]]]].
      { now apply (heads_view h v s). } { now left. }
      rewrite Ha in *; cbn [fst] in *.
      destruct (Good i w Hi) as [s2 [C'|C']]; [|eapply Fin; eauto|eapply Fin; eauto].
      destruct Hi2 as [Hi2|Hi2]; [now left|right].
      destruct (teq_spec sp x) as [|Hne]; [assumption|]. rewrite (L8 Hne) in Hi2; lia.
    + destruct (add_rejected re_w tk HS DS TR HL DL TL (V_of h) v s tag c x C T Hv Sb)
        as [v1 [v2 [e [Ha [C1 [C2 _]]]]]].
      { congruence. }
      { destruct (view HL (heads v) x) eqn:Hvx; [|reflexivity]. exfalso; apply Hx. apply (heads_view h v s); [exact I|congruence]. }
      rewrite Ha in *; cbn [fst] in *.
      destruct i as [|[|i]]; [injection Hi as <-; eapply Fin; eauto|injection Hi as <-; eapply Fin; eauto|destruct i; discriminate].
  - destruct (add_none re_w tk HS DS TR HL DL TL (V_of h) v s tag c C T Hv Sb) as [v1 [v2 [Ha [C1 [C2 _]]]]].
    rewrite Ha in *; cbn [fst] in *.
    destruct i as [|[|i]]; [injection Hi as <-; eapply Fin; eauto|injection Hi as <-; eapply Fin; eauto|destruct i; discriminate].
Qed.

(** at the dangerous point, only versions reached through the split are at risk *)
Theorem interruption_split h a : tk <> KLine -> fresh tk (h ++ [a]) ->
  let v := run v_empty h in
  forall w, nth_error (add_trace v a) 2 = Some w ->
  exists split, forall t b base path, In (t, b, base) h ->
    tr_path_to TR (tree w) t = Ok (Some path) -> ~ In split path -> get w t = Ok (Some b).
Proof.
  intros Hk F v w Hw.
  destruct (fresh_snoc _ _ _ F) as [F' [Hna [Hb Sb]]]. destruct (hist_ok h Hk F') as [s I]. fold v in I.
  destruct (Nat.le_gt_cases (length (add_trace v a)) 5) as [L|L].
  { exists (tag_of a). intros t b base path Hin _ _. eapply interruption; eauto. }
  destruct a as [[tag c] bs]; cbn [tag_of bytes_of base_of fst snd] in *.
  pose proof (h_core _ _ _ I) as C. pose proof (h_tidy _ _ _ I) as T.
  pose proof (proj2 (V_of_none h tag) Hna) as Hv.
  unfold Versions.add_trace in *.
  destruct bs as [x|].
  - destruct (is_head_dec h x v s I) as [Hx|Hx].
    + destruct (add_accepted re_w tk HS DS TR HL DL TL (V_of h) v s tag c x C T Hv Sb)
        as [tr [v' [s' [Ha [_ [_ [_ [_ [_ [sp [L5 [L8 [_ [_ [_ [Bad _]]]]]]]]]]]]]]]].
      { now apply (heads_view h v s). } { now left. }
      rewrite Ha in *; cbn [fst] in *. exists sp. intros t b base path Hin Hp Hnin.
      assert (Hne : sp <> x) by (intros Hc; rewrite (L5 Hc) in L; lia).
      specialize (Bad Hne w Hw).
      pose proof (V_of_In h t b base (proj1 F') Hin) as Bt.
      assert (Bt' : upd (V_of h) tag c t = Some b).
      { unfold upd. destruct (teq_spec tag t) as [<-|]; [exfalso; apply Hna; now apply In_added in Hin|exact Bt]. }
      destruct (ok_forest re_w tk HS DS TR HL DL TL _ w _ _ Bad t) as [l Hl]; [congruence|].
      rewrite (rep_path _ TL _ _ t l (c_rep _ _ _ _ _ _ _ _ _ _ _ _ Bad) Hl) in Hp. injection Hp as <-.
      apply (get_ok re_w tk HS DS TR HL DL TL (Some sp) _ w _ t b l Bad); auto.
      intros u Hu [= ->]. apply Hnin. now apply -> in_rev.
    + destruct (add_rejected re_w tk HS DS TR HL DL TL (V_of h) v s tag c x C T Hv Sb)
        as [v1 [v2 [e [Ha [C1 [C2 _]]]]]].
      { congruence. }
      { destruct (view HL (heads v) x) eqn:Hvx; [|reflexivity]. exfalso; apply Hx. apply (heads_view h v s); [exact I|congruence]. }
      rewrite Ha in L; cbn in L; lia.
  - destruct (add_none re_w tk HS DS TR HL DL TL (V_of h) v s tag c C T Hv Sb) as [v1 [v2 [Ha [C1 [C2 _]]]]].
    rewrite Ha in L; cbn in L; lia.
Qed.

(** * Paths *)
Theorem path_bound h : tk <> KLine -> fresh tk h -> exists s, rep TL (tree (run v_empty h)) s /\ tree_exact s /\
  forall t, added h t -> exists r n p, tr_path_to TR (tree (run v_empty h)) t = Ok (Some (r :: p)) /\
    dget s r = Some n /\ parent n = None /\ length p <= height n - 1.
Proof.
  intros Hk F. destruct (hist_ok h Hk F) as [s I].
  pose proof (c_rep _ _ _ _ _ _ _ _ _ _ _ _ (h_core _ _ _ I)) as R.
  pose proof (tree_ok_exact s (rep_ok _ TL _ _ R)) as X. exists s; split; [exact R|]. split; [exact X|].
  intros t Ha. destruct (inv_up h _ s t I Ha) as [l Hl].
  destruct (up_down _ _ _ Hl) as [r [n [Hr [Hp [Hd [_ [p Hrev]]]]]]].
  exists r, n, p. rewrite (rep_path _ TL _ s t l R Hl), Hrev. repeat split; auto.
  destruct X as [_ X]. destruct (X r n Hr) as [_ [[_ Hmax] _]]. rewrite Hrev in Hd. apply Hmax in Hd. cbn in Hd; lia.
Qed.
End H.
