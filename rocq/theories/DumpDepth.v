(** How deep the calls of [dump] and [all_suffixes] go. *)
From Coq Require Import Permutation Lia.
From Verif Require Import Base Strings StringsExt Automaton AutomatonInv SpecSeq AutomatonProofs AutomatonLcs
  Dump SpecDump DumpProofs.

Section P.
Context {T : Type} {E : Teq T} {O : TeqOk T}.
Implicit Types (s w : list T) (h : heap T).

(** the token of the first transition of a node *)
Definition first_key (nd : node T) : option T := hd_error (dkeys (n_trans nd)).
Definition keeps (nd nd' : node T) : Prop :=
  n_len nd' = n_len nd /\ n_fe nd' = n_fe nd /\ forall t, first_key nd = Some t -> first_key nd' = Some t.
Definition evolves h h' : Prop :=
  forall i nd, nth_error h i = Some nd -> exists nd', nth_error h' i = Some nd' /\ keeps nd nd'.
Lemma keeps_refl nd : keeps nd nd. Proof. repeat split; auto. Qed.
Lemma evolves_refl h : evolves h h. Proof. intros i nd H. exists nd. split; [exact H|apply keeps_refl]. Qed.
Lemma evolves_trans h1 h2 h3 : evolves h1 h2 -> evolves h2 h3 -> evolves h1 h3.
Proof.
  intros A B i nd H. destruct (A i nd H) as [n2 [H2 [L2 [F2 K2]]]]. destruct (B i n2 H2) as [n3 [H3 [L3 [F3 K3]]]].
  exists n3. split; [exact H3|]. repeat split; [congruence|congruence|auto].
Qed.
Lemma evolves_app h x : evolves h (h ++ [x]).
Proof.
  intros i nd H. exists nd. split; [|apply keeps_refl]. rewrite nth_error_app1; [exact H|]. apply nth_error_Some. congruence.
Qed.
Lemma evolves_lupd h c f : (forall nd, keeps nd (f nd)) -> evolves h (lupd h c f).
Proof.
  intros K i nd H. rewrite nth_error_lupd, H. destruct (c =? i); cbn; eexists; (split; [reflexivity|]); [apply K|apply keeps_refl].
Qed.
Lemma keeps_trans t j (nd : node T) : keeps nd (set_trans t j nd).
Proof.
  split; [reflexivity|]. split; [reflexivity|]. unfold first_key; cbn. destruct (n_trans nd) as [|[a b] tr]; [discriminate|].
  cbn. destruct (teq a t); auto.
Qed.
Lemma keeps_link l (nd : node T) : keeps nd (set_link l nd). Proof. repeat split; auto. Qed.
Lemma keeps_term (nd : node T) : keeps nd (set_term nd). Proof. repeat split; auto. Qed.
Lemma keeps_rev i (nd : node T) : keeps nd (add_rev i nd). Proof. repeat split; auto. Qed.

Lemma extend_loop_evolves fuel : forall h t new prev cur h' p c, extend_loop fuel h t new prev cur = Some (h', p, c) -> evolves h h'.
Proof.
  induction fuel as [|fuel IH]; intros h t new prev cur h' p c H; cbn in H; [discriminate|].
  destruct cur as [i|]; [|injection H as <- _ _; apply evolves_refl].
  destruct (nth_error h i) as [nd|]; [|discriminate]. destruct (dmem (n_trans nd) t); [injection H as <- _ _; apply evolves_refl|].
  apply IH in H. eapply evolves_trans; [|exact H]. apply evolves_lupd, keeps_trans.
Qed.
Lemma redirect_evolves fuel : forall h t q cl cur h', redirect_loop fuel h t q cl cur = Some h' -> evolves h h'.
Proof.
  induction fuel as [|fuel IH]; intros h t q cl cur h' H; cbn in H; [discriminate|].
  destruct cur as [i|]; [|injection H as <-; apply evolves_refl].
  destruct (nth_error h i) as [nd|]; [|discriminate]. destruct (dget (n_trans nd) t) as [d|]; [|injection H as <-; apply evolves_refl].
  destruct (d =? q); [|injection H as <-; apply evolves_refl].
  apply IH in H. eapply evolves_trans; [|exact H]. apply evolves_lupd, keeps_trans.
Qed.
Lemma insert_evolves h t p q h' cl : insert_node h t p q = Some (h', cl) -> evolves h h'.
Proof.
  unfold insert_node. destruct (nth_error h p) as [np|]; [|discriminate]. destruct (nth_error h q) as [nq|]; [|discriminate].
  match goal with |- context [redirect_loop ?f ?x ?t ?q ?c ?k] => destruct (redirect_loop f x t q c k) as [h3|] eqn:R; [|discriminate] end.
  intros [= <- _]. apply redirect_evolves in R. eapply evolves_trans; [|exact R].
  eapply evolves_trans; [apply evolves_app|apply evolves_lupd, keeps_link].
Qed.
Lemma extend_loop_step f h t new prev c nd : nth_error h c = Some nd -> dmem (n_trans nd) t = false ->
  extend_loop (S f) h t new prev (Some c) = extend_loop f (lupd h c (set_trans t new)) t new (Some c) (n_link nd).
Proof. intros H1 H2. cbn [extend_loop]. now rewrite H1, H2. Qed.
(** an extension keeps all first transitions, and gives the last node its first one *)
Lemma extend_first h last t h' last' nl : nth_error h last = Some nl -> n_trans nl = [] -> extend h last t = Some (h', last') ->
  evolves h h' /\ exists nd, nth_error h' last = Some nd /\ n_len nd = n_len nl /\ n_fe nd = n_fe nl /\ first_key nd = Some t.
Proof.
  intros Hl He H. unfold extend in H. rewrite Hl in H. set (new := length h) in *.
  set (h1 := h ++ [mkNode (n_len nl + 1) [] (n_len nl + 1) false None []]) in *.
  assert (H1 : nth_error h1 last = Some nl) by (unfold h1; rewrite nth_error_app1; [exact Hl|apply nth_error_Some; congruence]).
  rewrite (extend_loop_step _ _ _ _ _ _ _ H1) in H by (rewrite He; reflexivity).
  set (h2 := lupd h1 last (set_trans t new)) in *.
  assert (E2 : evolves h h2) by (eapply evolves_trans; [apply evolves_app|apply evolves_lupd, keeps_trans]).
  assert (L2 : exists nd, nth_error h2 last = Some nd /\ n_len nd = n_len nl /\ n_fe nd = n_fe nl /\ first_key nd = Some t).
  { unfold h2. rewrite nth_error_lupd, H1, Nat.eqb_refl. cbn. eexists. split; [reflexivity|]. cbn. unfold first_key; cbn. rewrite He.
    repeat split. }
  match type of H with context [extend_loop ?f ?x ?t ?n ?p ?k] => destruct (extend_loop f x t n p k) as [[[h3 p3] c3]|] eqn:R; [|discriminate] end.
  apply extend_loop_evolves in R.
  enough (Ev : evolves h2 h').
  { split; [eapply evolves_trans; [exact E2|exact Ev]|]. destruct L2 as [nd [A [B [C D]]]]. destruct (Ev _ _ A) as [nd' [A' [B' [C' D']]]].
    exists nd'. split; [exact A'|]. split; [congruence|]. split; [congruence|auto]. }
  eapply evolves_trans; [exact R|]. destruct c3 as [p0|].
  - destruct (nth_error h3 p0) as [np|]; [|discriminate]. destruct (dget (n_trans np) t) as [q|]; [|discriminate].
    destruct (nth_error h3 q) as [nq|]; [|discriminate]. destruct (n_len nq =? n_len np + 1).
    + injection H as <- _. apply evolves_lupd, keeps_link.
    + destruct (insert_node h3 t p0 q) as [[h4 cl]|] eqn:I; [|discriminate]. injection H as <- _. apply insert_evolves in I.
      eapply evolves_trans; [exact I|apply evolves_lupd, keeps_link].
  - injection H as <- _. apply evolves_lupd, keeps_link.
Qed.

(** [k] tokens of [s] lead to a node whose first transition is by the next token *)
Definition spine h s (k : nat) : Prop :=
  forall j t, j < k -> nth_error s j = Some t -> exists i nd, nth_error h i = Some nd /\ n_len nd = j /\ n_fe nd = j /\ first_key nd = Some t.
Lemma spine_evolves h h' s k : evolves h h' -> spine h s k -> spine h' s k.
Proof.
  intros Ev S j t Hj Ht. destruct (S j t Hj Ht) as [i [nd [A [B [C D]]]]]. destruct (Ev _ _ A) as [nd' [A' [B' [C' D']]]].
  exists i, nd'. split; [exact A'|]. split; [congruence|]. split; [congruence|auto].
Qed.
Lemma first_end_prefix s e : first_end s s e -> e = length s.
Proof. intros [H _]. pose proof (Occ_le _ _ _ H). pose proof (Occ_bound _ _ _ H). lia. Qed.
Lemma last_empty W s h last nl : Inv W s h last -> nth_error h last = Some nl ->
  n_trans nl = [] /\ n_len nl = length s /\ n_fe nl = length s.
Proof.
  intros I Hl. destruct (inv_last _ _ _ _ I) as [_ Wl]. destruct (inv_node _ _ _ _ I _ _ Hl) as [K1 K2 K3 K4 K5 K6].
  rewrite Wl in *. split; [|split; [exact K1|now apply first_end_prefix]].
  destruct (n_trans nl) as [|[t j] tr]; [reflexivity|]. exfalso. specialize (K6 t). cbn [dget] in K6.
  destruct (teq_spec t t) as [_|X]; [|now destruct X]. destruct K6 as [Hj [K6 _]]. destruct (idx_node h j Hj) as [nj Hnj].
  destruct (inv_node _ _ _ _ I _ _ Hnj) as [_ [[e He] _] _ _ _ _]. pose proof (Occ_le _ _ _ He). pose proof (Occ_bound _ _ _ He).
  apply suf_length in K6. rewrite Wl, app_length in K6; cbn in K6. lia.
Qed.
Lemma extend_all_spine r : forall W s h last h' last', Inv W s h last -> spine h (s ++ r) (length s) ->
  extend_all h last r = Some (h', last') -> spine h' (s ++ r) (length (s ++ r)).
Proof.
  induction r as [|t r IH]; intros W s h last h' last' I S H; cbn [extend_all] in H.
  - injection H as <- _. rewrite app_nil_r in *. exact S.
  - destruct (extend_ok W s h last t I) as [W1 [h1 [l1 [H1 [I1 _]]]]]. rewrite H1 in H.
    destruct (inv_last _ _ _ _ I) as [Hlast _]. destruct (idx_node h last Hlast) as [nl Hl].
    destruct (last_empty W s h last nl I Hl) as [E1 [E2 E3]].
    destruct (extend_first h last t h1 l1 nl Hl E1 H1) as [Ev [nd [A [B [C D]]]]].
    change (t :: r) with ([t] ++ r) in *. rewrite app_assoc in *. apply (IH W1 (s ++ [t]) h1 l1 h' last' I1); [|exact H].
    intros j u Hj Hu. rewrite app_length in Hj; cbn in Hj. destruct (Nat.eq_dec j (length s)) as [->|Hne].
    + rewrite <- app_assoc, nth_error_app2, Nat.sub_diag in Hu by lia. injection Hu as <-.
      exists last, nd. split; [exact A|]. split; [congruence|]. split; [congruence|exact D].
    + apply (spine_evolves h h1 _ _ Ev S); [lia|exact Hu].
Qed.
Lemma mark_evolves fuel : forall h cur h', mark_terminals fuel h cur = Some h' -> evolves h h'.
Proof.
  induction fuel as [|fuel IH]; intros h cur h' H; cbn in H; [discriminate|].
  destruct cur as [i|]; [|injection H as <-; apply evolves_refl].
  destruct (nth_error h i) as [nd|]; [|discriminate]. apply IH in H. eapply evolves_trans; [|exact H]. apply evolves_lupd, keeps_term.
Qed.
Lemma reverse_evolves ids : forall h h', add_reverse_links h ids = Some h' -> evolves h h'.
Proof.
  induction ids as [|i ids IH]; intros h h' H; cbn in H; [injection H as <-; apply evolves_refl|].
  destruct (nth_error h i) as [nd|]; [|discriminate]. destruct (n_link nd) as [u|]; [|now apply IH].
  apply IH in H. eapply evolves_trans; [|exact H]. apply evolves_lupd, keeps_rev.
Qed.
Theorem build_spine s h : build s = Some h -> spine h s (length s).
Proof.
  unfold build. destruct (build_core s) as [[h0 last]|] eqn:B; [|discriminate].
  destruct (mark_terminals (S (S (length s))) h0 (Some last)) as [h1|] eqn:M; [|discriminate]. intros R.
  apply mark_evolves in M. apply reverse_evolves in R. eapply spine_evolves; [eapply evolves_trans; [exact M|exact R]|].
  apply (extend_all_spine s (fun _ => []) [] [root_node] 0 h0 last Inv_init); [|exact B]. intros j t Hj. cbn in Hj. lia.
Qed.

(** the nodes along the text are dumped one inside the other *)
Section Depth.
Variables (W : nat -> list T) (s : list T) (h : heap T).
Hypothesis HA : AInv W s h.
Hypothesis HS : spine h s (length s).

Lemma prefix_node i nd k : nth_error h i = Some nd -> n_len nd = k -> n_fe nd = k -> k <= length s -> W i = firstn k s.
Proof.
  intros Hn Hl Hf Hk. destruct (ai_node _ _ _ HA _ _ Hn) as [K1 _ [[_ [x Hx]] _] _ _ _].
  rewrite Hf in Hx. rewrite Hl in K1. destruct x as [|y x]; [now symmetry|].
  apply (f_equal (@length T)) in Hx. rewrite firstn_length, app_length in Hx. cbn in Hx. lia.
Qed.
Lemma dump_deep : forall limit k i dumped, i < length h -> W i = firstn k s -> limit + k <= length s ->
  (forall x, In x dumped -> length (W x) < k) -> dump_lim limit h i dumped = Err RecursionError.
Proof.
  induction limit as [|limit IH]; intros k i dumped Hi Hw L D; [reflexivity|]. cbn [dump_lim].
  assert (Lk : length (W i) = k) by (rewrite Hw, firstn_length; lia).
  replace (among i dumped) with false.
  2: { symmetry. apply among_not. intros C. apply D in C. lia. }
  destruct (idx_node h i Hi) as [nd Hn]. rewrite Hn.
  destruct (nth_error s k) as [t|] eqn:Ht; [|apply nth_error_None in Ht; lia].
  destruct (HS k t ltac:(lia) Ht) as [i' [nd' [Hn' [A [B C]]]]].
  assert (i' = i).
  { apply (ai_inj _ _ _ HA); [eapply node_idx; eauto|exact Hi|]. rewrite Hw. eapply prefix_node; eauto. lia. }
  subst i'. assert (nd' = nd) by congruence. subst nd'. unfold first_key in C.
  destruct (ai_node _ _ _ HA _ _ Hn) as [_ _ _ _ _ K6].
  destruct (n_trans nd) as [|[t' j] tr]; [discriminate|]. cbn in C. injection C as ->.
  specialize (K6 t). cbn [dget] in K6. destruct (teq_spec t t) as [_|X]; [|now destruct X]. destruct K6 as [Hj [_ Ke]].
  assert (Wj : W j = firstn (S k) s).
  { assert (Hp : firstn (S k) s = W i ++ [t]).
    { rewrite Hw. clear -Ht. revert k Ht. induction s as [|y r IHr]; intros [|k] Ht; try discriminate.
      - cbn in Ht. injection Ht as ->. reflexivity.
      - cbn [firstn app]. f_equal. now apply IHr. }
    symmetry. apply (Canon_uniq s); [apply Canon_prefix; lia|apply (a_canon W s h HA j Hj)|]. rewrite Hp. exact Ke. }
  cbn [dump_all]. rewrite (IH (S k) j); [reflexivity|exact Hj|exact Wj|lia|].
  intros x X. apply in_app_or in X as [X|[<-|[]]]; [apply D in X; lia|lia].
Qed.
Lemma suffixes_deep : forall limit i u w l, at_word W s h i u -> Sub s (u ++ w) ->
  all_suffixes_from limit h i = Some l -> length w < limit.
Proof.
  induction limit as [|limit IH]; intros i u w l A Hs H; [discriminate|]. cbn [all_suffixes_from] in H.
  destruct w as [|a w]; [cbn; lia|]. destruct (idx_node h i (proj1 A)) as [nd Hn]. rewrite Hn in H.
  pose proof (at_step W s h HA i u nd a A Hn) as K.
  change (a :: w) with ([a] ++ w) in Hs. rewrite app_assoc in Hs.
  destruct (dget (n_trans nd) a) as [k|] eqn:Hk; [|exfalso; apply K; eapply Sub_app; eauto].
  destruct (prepend_all (all_suffixes_from limit h) (n_trans nd)) as [rest|] eqn:P; [|discriminate]. clear H.
  assert (Q : exists l', all_suffixes_from limit h k = Some l').
  { apply dget_In in Hk. clear -P Hk. revert rest P. induction (n_trans nd) as [|[t j] tr IHt]; intros rest P; [destruct Hk|].
    cbn [prepend_all] in P. destruct (all_suffixes_from limit h j) as [l1|] eqn:X; [|discriminate].
    destruct (prepend_all (all_suffixes_from limit h) tr) as [l2|]; [|discriminate].
    destruct Hk as [[= -> ->]|Hk]; [eauto|]. now apply (IHt Hk l2). }
  destruct Q as [l' Q]. specialize (IH k (u ++ [a]) w l' K Hs Q). cbn. lia.
Qed.
End Depth.

Theorem dump_depth s h limit : build s = Some h ->
  (length s < limit -> exists lines, dump limit h = Ok lines) /\
  (limit <= length s -> dump limit h = Err RecursionError).
Proof.
  intros HB. destruct (build_ok s) as [W [h' [HB' [HA _]]]]. assert (h' = h) by congruence. subst h'.
  destruct (ai_root _ _ _ HA) as [H0 W0]. split; intros L.
  - destruct (dump_lim_ok h (a_ranged W s h HA) (fun i => length s - length (W i)) (a_longer W s h HA) limit 0 [] H0)
      as [new [H1 _]]; [lia|constructor|]. unfold dump. rewrite H1. cbn. eauto.
  - unfold dump. rewrite (dump_deep W s h HA (build_spine s h HB) limit 0 0 []); [reflexivity|exact H0|exact W0|lia|intros ? []].
Qed.
Theorem suffixes_depth s h limit : build s = Some h ->
  (all_suffixes_from limit h 0 <> None <-> length s < limit).
Proof.
  intros HB. destruct (build_ok s) as [W [h' [HB' [HA _]]]]. assert (h' = h) by congruence. subst h'.
  destruct (ai_root _ _ _ HA) as [H0 W0]. split.
  - intros H. destruct (all_suffixes_from limit h 0) as [l|] eqn:Q; [|now destruct H].
    apply (suffixes_deep W s h HA limit 0 [] s l); [apply (at_root W s h HA)|apply Canon_full|exact Q].
  - intros L. destruct (all_suffixes_from_ok W s h HA limit 0 H0) as [l [-> _]]; [rewrite W0; cbn; lia|discriminate].
Qed.
Theorem too_deep (t : T) limit : exists s h, build s = Some h /\
  dump limit h = Err RecursionError /\ all_suffixes_from limit h 0 = None.
Proof.
  exists (repeat t limit). destruct (build_ok (repeat t limit)) as [W [h [HB _]]]. exists h. split; [exact HB|].
  pose proof (repeat_length t limit) as L. split; [apply (dump_depth _ h limit HB); lia|].
  destruct (all_suffixes_from limit h 0) eqn:Q; [|reflexivity].
  enough (length (repeat t limit) < limit) by lia. apply (suffixes_depth _ h limit HB). congruence.
Qed.
End P.
