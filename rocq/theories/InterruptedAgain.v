(** The same add made again in memory, after an interrupted one (C125). *)
From Coq Require Import ZArith Lia.
From Verif Require Import Base SpecSeq Changesets Serialize Tokenizers SpecTokenizers TokenizersDiff Tree SpecTree TreeProofs
  Versions SpecVersions VersionsPatch VersionsInv VersionsProofs DbTreeProofs SpecInterrupted InterruptedProofs MemoryLoose.
Local Open Scope nat_scope.

Section Again.
Context {K : Type} {E : Teq K} {O : TeqOk K}.
Variable re_w : Z -> bool.
Variable tk : tkind.
Variables HS DS : store K.
Variable HL : store_law HS.
Variable DL : store_law DS.
Hypothesis Hk : tk <> KLine.
Notation M := (memory_tree K).
Notation LL := loose_memory_law.
Notation core := (core re_w tk HS DS M HL DL LL).
Notation tidy := (tidy HS DS M HL DL).
Notation state_ok := (state_ok re_w tk HS DS M HL DL LL).

Lemma state_loose V (R : K -> Prop) x w :
  InterruptedProofs.state_ok re_w tk HS DS M HL DL memory_law V R x w -> state_ok V R x w.
Proof.
  intros [s [C [T HR]]]. exists s. split; [|auto]. destruct C as [[Es X] A B D F G]. split; auto. cbn. rewrite Es. now apply exact_loose.
Qed.

(** line 36 again: the tag keeps its children, but does not list them *)
Lemma renewed_loose V (R : K -> Prop) w tag b base x : state_ok V R x w -> R tag -> V tag = Some b ->
  let v2 : vstate HS DS M := mkV (s_set HS tag b (heads w)) (diffs w) (fst (m_add tag base (tree w)) : tree_t M) in
  exists s2 n2, core None V v2 s2 /\ tidy x v2 s2 /\ (forall t n, dget s2 t = Some n -> R t -> parent n = None) /\
    dget s2 tag = Some n2 /\ parent n2 = None.
Proof.
  intros [s [C [T HR]]] Rt Bt v2.
  destruct (dget s tag) as [n0|] eqn:H0; [|apply (c_dom _ _ _ _ _ _ _ _ _ _ _ _ C) in H0; congruence].
  pose proof (HR tag n0 H0 Rt) as Hp.
  pose proof (renew_loose (tree w) s tag n0 base (c_rep _ _ _ _ _ _ _ _ _ _ _ _ C) H0 Hp) as R2.
  set (n2 := mkNode (length s) None (children n0) 1 1 base) in *. set (s2 := dset s tag n2) in *.
  assert (G : forall u, dget s2 u = if teq tag u then Some n2 else dget s u) by (intros; apply dget_dset).
  exists s2, n2. split; [|split; [|split; [|split; [now rewrite G, teq_refl|reflexivity]]]].
  - split; cbn.
    + exact R2.
    + split; [apply fine_set, C|apply C].
    + intros t. rewrite <- (c_dom _ _ _ _ _ _ _ _ _ _ _ _ C t). rewrite G. destruct (teq_spec tag t) as [<-|]; [|reflexivity].
      rewrite H0. split; discriminate.
    + apply C.
    + intros t n Hn Hpn. rewrite (view_set _ HL). rewrite G in Hn.
      destruct (teq_spec tag t) as [<-|]; [congruence|]. now apply (c_head _ _ _ _ _ _ _ _ _ _ _ _ C t n).
    + intros t n q bq bt Hn Hpn Hq Ht _. rewrite G in Hn.
      destruct (teq_spec tag t) as [<-|Htt]; [injection Hn as <-; discriminate|].
      eapply (c_diff _ _ _ _ _ _ _ _ _ _ _ _ C); eauto; discriminate.
  - intros t Hx; cbn. rewrite (view_set _ HL). destruct (T t) as [T1 T2]; [exact Hx|].
    rewrite G. destruct (teq_spec tag t) as [<-|Htt]; [|auto].
    split; [intros _; exists n2; split; reflexivity|].
    intros H; apply T2 in H as [n [Hn Hp']]. congruence.
  - intros t n Hn Rt'. rewrite G in Hn. destruct (teq_spec tag t) as [<-|]; [injection Hn as <-; reflexivity|]. now apply (HR t).
Qed.
(** the base is no longer stored as a head *)
Lemma rest_err V v s tag b h nh : core None V v s -> dget s h = Some nh -> view HL (heads v) h = None ->
  rest re_w tk HS DS M tag b h v = ([], (v, Err KeyError)).
Proof.
  intros C Hn Hv. destruct (rep_split _ LL _ _ h nh (c_rep _ _ _ _ _ _ _ _ _ _ _ _ C) Hn) as [p [Hsp [Hdn _]]].
  unfold rest. erewrite vbind_ok; [|unfold look; rewrite Hsp; reflexivity|].
  { rewrite app_nil_l; reflexivity. }
  cbn [fst snd]. destruct (teq (last p h) h).
  - erewrite vbind_ok; [|reflexivity|]. { rewrite app_nil_l; reflexivity. }
    apply vbind_err. unfold look. now rewrite (view_get _ HL), Hv.
  - apply vbind_err, vbind_err. unfold look, retrieve_using_path.
    destruct (down_cons _ _ _ Hdn) as [p' ->]. now rewrite (view_get _ HL), Hv.
Qed.
(** once the tag is a root of the tree and the base is there *)
Lemma again_state h tag b y (R : K -> Prop) x w : let a := (tag, b, Some y) in
  let V := upd (V_of h) tag b in
  ~ added h tag -> y <> tag -> is_head h y ->
  (forall t, is_head h t /\ t <> y \/ t = tag -> R t) -> state_ok V R x w ->
  (view HL (heads w) y = V y ->
    add_result re_w tk HS DS M w a = Ok tt /\ goes_on re_w tk HS DS M (h ++ [a]) (add_state re_w tk HS DS M w a)) /\
  (view HL (heads w) y = None ->
    add_result re_w tk HS DS M w a = Err KeyError /\ goes_on re_w tk HS DS M (h ++ [a]) (add_state re_w tk HS DS M w a)).
Proof.
  intros a V Hna Hyt Hy HR0 S.
  assert (Bt : V tag = Some b) by (unfold V, upd; now rewrite teq_refl).
  destruct (renewed_loose V R w tag b (Some y) x S (HR0 tag (or_intror eq_refl)) Bt) as [s2 [n2 [C2 [T2 [HR2 [H2 Hp2]]]]]].
  cbn zeta in C2, T2.
  set (v2 := mkV (s_set HS tag b (heads w)) (diffs w) (fst (m_add tag (Some y) (tree w)) : tree_t M) : vstate HS DS M) in *.
  assert (Ha : tr_add M tag (Some y) (tree w) = (fst (m_add tag (Some y) (tree w)) : tree_t M, Ok tt)) by reflexivity.
  assert (Vy : view HL (heads v2) y = view HL (heads w) y) by (cbn; rewrite (view_set _ HL); destruct (teq_spec tag y); congruence).
  destruct (dget s2 y) as [ny|] eqn:Hny.
  2:{ apply (c_dom _ _ _ _ _ _ _ _ _ _ _ _ C2) in Hny. unfold V, upd in Hny. destruct (teq_spec tag y); [congruence|].
      apply V_of_none in Hny. now apply is_head_added in Hy. }
  assert (Fin : forall x' w', state_ok V (fun t => R t /\ t <> y) x' w' -> goes_on re_w tk HS DS M (h ++ [a]) w').
  { intros x' w' S'. apply (state_goes_on re_w tk HS DS M HL DL LL Hk _ x').
    assert (VA : V_of (h ++ [a]) = V) by apply V_of_snoc.
    match goal with |- _ ?W _ _ _ => assert (VA' : W = V) by exact VA; rewrite VA' end. eapply state_roots; [|exact S'].
    intros t Hh. apply is_head_snoc in Hh; [|exact Hna|cbn; congruence]. cbn in Hh.
    destruct Hh as [->|[A B]]; (split; [apply HR0|]); auto; [|congruence]. left; split; [exact A|congruence]. }
  split; intros Hv; unfold add_result, add_state, a.
  - destruct (rest_ok re_w tk HS DS M HL DL LL Hk x V v2 s2 tag b y ny n2 R C2 T2 Hyt) as [tr' [w' [He [[S' _] _]]]]; auto.
    { congruence. }
    { left; exact I. }
    rewrite (add_rest re_w tk HS DS M tag b y w _ Ha tr' _ He). cbn [fst snd]. split; [reflexivity|]. eapply Fin; exact S'.
  - rewrite (add_rest re_w tk HS DS M tag b y w _ Ha [] (v2, Err KeyError)).
    2:{ apply (rest_err V v2 s2 tag b y ny C2 Hny). congruence. }
    cbn [fst snd]. split; [reflexivity|]. apply (Fin x). exists s2. split; [exact C2|]. split; [exact T2|].
    intros t n Hn [Ht _]. eapply HR2; eauto.
Qed.

Theorem memory_retry h a : fresh tk (h ++ [a]) -> head_after h (base_of a) ->
  let v := run re_w tk HS DS M v_empty h in let n := length (add_trace re_w tk HS DS M v a) in
  forall i w, nth_error (add_trace re_w tk HS DS M v a) i = Some w -> i <> 2 \/ n <= 5 ->
  add_result re_w tk HS DS M w a = (if (2 <? n) && (S i =? n) then Err KeyError else Ok tt) /\
  goes_on re_w tk HS DS M (h ++ [a]) (add_state re_w tk HS DS M w a).
Proof.
  intros F Hx v n i w Hi Hi2.
  pose proof (memory_again re_w tk HS DS HL DL Hk h a F Hx i w Hi) as Early. cbn zeta in Early. fold v in Early. fold n in Early.
  destruct (fresh_snoc _ _ _ F) as [F' [Hna [Hb Sb]]].
  destruct (trace_ok re_w tk HS DS M HL DL memory_law Hk h a F Hx) as [v1 [v2 [s2 [tr [Ht [S1 [C2 [T2 [_ [_ [_ Hr]]]]]]]]]]].
  fold v in Ht. cbn zeta in Hr. unfold n in *. rewrite Ht in *. clear n.
  destruct a as [[tag b] base]; cbn [tag_of bytes_of base_of fst snd] in *. destruct base as [y|].
  2:{ subst tr. cbn [length] in *. change (2 <? 2) with false. cbn [andb]. apply Early.
      destruct i as [|[|i]]; [lia|lia|]. destruct i; discriminate Hi. }
  cbn in Hx. assert (Hyt : y <> tag) by congruence.
  assert (One : forall (R : K -> Prop) x w0, (forall t, is_head h t /\ t <> y \/ t = tag -> R t) ->
    InterruptedProofs.state_ok re_w tk HS DS M HL DL memory_law (upd (V_of h) tag b) R x w0 ->
    (view HL (heads w0) y = upd (V_of h) tag b y ->
      add_result re_w tk HS DS M w0 (tag, b, Some y) = Ok tt /\
      goes_on re_w tk HS DS M (h ++ [(tag, b, Some y)]) (add_state re_w tk HS DS M w0 (tag, b, Some y))) /\
    (view HL (heads w0) y = None ->
      add_result re_w tk HS DS M w0 (tag, b, Some y) = Err KeyError /\
      goes_on re_w tk HS DS M (h ++ [(tag, b, Some y)]) (add_state re_w tk HS DS M w0 (tag, b, Some y)))).
  { intros R x w0 HR0 S. exact (again_state h tag b y R x w0 Hna Hyt Hx HR0 (state_loose _ _ _ _ S)). }
  assert (Root : forall x w0, InterruptedProofs.state_ok re_w tk HS DS M HL DL memory_law (upd (V_of h) tag b)
     (fun t => is_head h t \/ t = tag) x w0 -> view HL (heads w0) y = upd (V_of h) tag b y).
  { intros x w0 [s [C [_ HR]]].
    destruct (dget s y) as [ny|] eqn:Hny.
    - apply (c_head _ _ _ _ _ _ _ _ _ _ _ _ C y ny Hny). apply (HR y ny Hny). now left.
    - apply (c_dom _ _ _ _ _ _ _ _ _ _ _ _ C) in Hny. unfold upd in Hny. destruct (teq_spec tag y); [congruence|].
      apply V_of_none in Hny. now apply is_head_added in Hx. }
  assert (R1 : forall t, is_head h t /\ t <> y \/ t = tag -> is_head h t \/ t = tag) by tauto.
  assert (R2 : forall t, is_head h t /\ t <> y \/ t = tag -> (is_head h t \/ t = tag) /\ t <> y).
  { intros t [[A B]| ->]; auto. }
  destruct Hr as [[w1 [w2 [w3 [-> [_ [_ [[D Dv] [G Gv]]]]]]]]|[w0 [w1 [w2 [w3 [w4 [w5 [-> [A [B [D [[G Gv] [J Jv]]]]]]]]]]]]];
    cbn [length] in *.
  - destruct i as [|[|[|[|[|i]]]]]; cbn in Hi; try (destruct i; discriminate Hi); cbn [Nat.ltb Nat.leb Nat.eqb andb].
    1,2,3: apply Early; lia.
    + injection Hi as <-. apply (One _ _ _ R2 D). exact Dv.
    + injection Hi as <-. apply (One _ _ _ R2 G). exact Gv.
  - destruct i as [|[|[|[|[|[|[|[|i]]]]]]]]; cbn in Hi; try (destruct i; discriminate Hi); cbn [Nat.ltb Nat.leb Nat.eqb andb].
    1,2: apply Early; lia.
    + exfalso; lia.
    + injection Hi as <-. apply (One _ _ _ R1 A). exact (Root _ _ A).
    + injection Hi as <-. apply (One _ _ _ R1 B). exact (Root _ _ B).
    + injection Hi as <-. apply (One _ _ _ R1 D). exact (Root _ _ D).
    + injection Hi as <-. apply (One _ _ _ R2 G). exact Gv.
    + injection Hi as <-. apply (One _ _ _ R2 J). exact Jv.
Qed.
Lemma valid_retry h a : valid tk (h ++ [a]) ->
  let v := run re_w tk HS DS M v_empty h in let n := length (add_trace re_w tk HS DS M v a) in
  forall i w, nth_error (add_trace re_w tk HS DS M v a) i = Some w -> i <> 2 \/ n <= 5 ->
  add_result re_w tk HS DS M w a = (if (2 <? n) && (S i =? n) then Err KeyError else Ok tt) /\
  goes_on re_w tk HS DS M (h ++ [a]) (add_state re_w tk HS DS M w a).
Proof. intros V. apply valid_last in V as [F Hx]. exact (memory_retry h a F Hx). Qed.
End Again.
