(** What an [add] leaves as it was. *)
From Coq Require Import ZArith Lia.
From Verif Require Import Base Changesets Serialize Tokenizers SpecTokenizers Tree SpecTree TreeProofs TreeExact
  Versions SpecVersions VersionsInv VersionsProofs TreeComb DbTree DbTreeProofs SpecDb DbVersions.
Local Open Scope nat_scope.

Section T.
Context {K : Type} {E : Teq K} {O : TeqOk K}.
Implicit Type s : nodes K.

(** ways to the root when the parents are the same *)
Lemma up_same s s' : (forall t, dget s t <> None -> dget s' t <> None) ->
  forall t l, up s t l ->
  (forall c q, In c l -> (child_of s' c q <-> child_of s c q)) -> up s' t l.
Proof.
  intros Kn t l U. induction U as [t n Hn Hp|t n q l Hn Hp U IH]; intros Hc.
  - destruct (dget s' t) as [m|] eqn:Hm; [|exfalso; apply (Kn t); congruence].
    apply (up_root s' t m Hm). destruct (parent m) as [q|] eqn:Q; [|reflexivity].
    assert (C : child_of s t q) by (apply Hc; [now left|exists m; auto]).
    destruct C as [n' [C1 C2]]. congruence.
  - assert (C : child_of s' t q) by (apply Hc; [now left|exists n; auto]).
    destruct C as [m [C1 C2]]. apply (up_step s' t m q l C1 C2), IH. intros c r Hin; apply Hc; now right.
Qed.
(** ways that reach a node which has been put below a new root *)
Lemma up_moved s s' y tag n' : dget s' tag = Some n' -> parent n' = None -> child_of s' y tag ->
  forall l1 t l2, up s t (l1 ++ y :: l2) ->
  (forall c q, In c l1 -> child_of s c q -> child_of s' c q) -> up s' t (l1 ++ [y; tag]).
Proof.
  intros Ht Hp [m [Hy1 Hy2]]. induction l1 as [|c l1 IH]; intros t l2 U Hc; cbn [app] in *.
  - assert (t = y) by (now inversion U). subst t.
    apply (up_step s' y m tag [tag] Hy1 Hy2). now apply up_root with n'.
  - inversion U as [t' n Hn Hpn|t' n q l Hn Hpn U']; subst.
    + exfalso. destruct l1; discriminate.
    + destruct (Hc c q ltac:(now left) ltac:(exists n; auto)) as [m' [C1 C2]].
      apply (up_step s' c m' q _ C1 C2). apply (IH q l2 U'). intros d r Hin; apply Hc; now right.
Qed.
Lemma up_suffix s : forall l1 t y l2, up s t (l1 ++ y :: l2) -> up s y (y :: l2).
Proof.
  induction l1 as [|c l1 IH]; intros t y l2 U; cbn [app] in *.
  - assert (t = y) by (now inversion U). now subst t.
  - inversion U as [t' n Hn Hpn|t' n q l Hn Hpn U']; subst; [destruct l1; discriminate|eauto].
Qed.
Lemma up_det s t l : up s t l -> forall l', up s t l' -> l = l'.
Proof.
  intros U. induction U as [t n Hn Hp|t n q l Hn Hp U IH]; intros l' U'; inversion U' as [? n' H1 H2|? n' q' ? H1 H2 H3]; subst; try congruence.
  f_equal. apply IH. congruence.
Qed.
Lemma up_to_root s t l1 x l2 n : up s t (l1 ++ x :: l2) -> dget s x = Some n -> parent n = None -> l2 = [].
Proof.
  intros U Hn Hp. apply up_suffix in U. pose proof (up_det _ _ _ U [x] ltac:(now apply up_root with n)) as H.
  now injection H.
Qed.
End T.

Section H.
Context {K : Type} {E : Teq K} {O : TeqOk K}.
Variable re_w : Z -> bool.
Variable tk : tkind.
Variables HS DS : store K.
Variable TR : tree_impl K.
Variable HL : store_law HS.
Variable DL : store_law DS.
Variable TL : tree_law TR.
Notation run := (run re_w tk HS DS TR).
Notation hist_inv := (hist_inv re_w tk HS DS TR HL DL TL).
Notation same_head v v' u := (s_get HS (heads v') u = s_get HS (heads v) u).
Notation same_diff v v' u := (s_get DS (diffs v') u = s_get DS (diffs v) u).
Notation same_path v v' u := (tr_path_to TR (tree v') u = tr_path_to TR (tree v) u).

Lemma V_of_old h a u : added h u -> ~ added h (tag_of a) -> V_of (h ++ [a]) u = V_of h u.
Proof.
  intros Ha Hn. rewrite V_of_snoc. unfold upd. destruct (teq_spec (tag_of a) u) as [<-|]; [contradiction|reflexivity].
Qed.

Lemma frame_diff h a v v' s s' u : hist_inv h v s -> hist_inv (h ++ [a]) v' s' -> ~ added h (tag_of a) -> added h u ->
  (forall q, child_of s' u q <-> child_of s u q) -> same_diff v v' u.
Proof.
  intros I I' Hn Ha Hc. rewrite !(view_get _ DL).
  enough (view DL (diffs v') u = view DL (diffs v) u) as -> by reflexivity.
  pose proof (h_core _ _ _ _ _ _ _ _ _ _ _ I) as C. pose proof (h_core _ _ _ _ _ _ _ _ _ _ _ I') as C'.
  destruct (dget s u) as [n|] eqn:Hu.
  2: { apply (known_added re_w tk HS DS TR HL DL TL _ _ _ _ I) in Hu; contradiction. }
  destruct (parent n) as [q|] eqn:Hq.
  - assert (Cu : child_of s u q) by (exists n; auto). pose proof (proj2 (Hc q) Cu) as [n' [Hu' Hq']].
    assert (Aq : added h q).
    { pose proof (child_known re_w tk HS DS TR HL DL TL _ _ _ _ _ _ C Cu) as Kq.
      destruct (V_of h q) as [bq|] eqn:Bq; [apply V_of_some in Bq as [b' Bq]; eapply In_added; eauto|].
      apply (c_dom _ _ _ _ _ _ _ _ _ _ _ _ C) in Bq; contradiction. }
    destruct (V_of h q) as [bq|] eqn:Bq; [|apply V_of_none in Bq; contradiction].
    destruct (V_of h u) as [bu|] eqn:Bu; [|apply V_of_none in Bu; contradiction].
    destruct (c_diff _ _ _ _ _ _ _ _ _ _ _ _ C u n q bq bu Hu Hq Bq Bu ltac:(discriminate)) as [d [Hd [i [M1 M2]]]].
    destruct (c_diff _ _ _ _ _ _ _ _ _ _ _ _ C' u n' q bq bu Hu' Hq') as [d' [Hd' [i' [M1' M2']]]];
      [now rewrite V_of_old|now rewrite V_of_old|discriminate|]. congruence.
  - destruct (view DL (diffs v) u) eqn:D1.
    { exfalso. destruct (proj2 (h_tidy _ _ _ _ _ _ _ _ _ _ _ I u ltac:(discriminate))) as [n' [N1 N2]]; congruence. }
    destruct (view DL (diffs v') u) eqn:D2; [|reflexivity].
    exfalso. destruct (proj2 (h_tidy _ _ _ _ _ _ _ _ _ _ _ I' u ltac:(discriminate))) as [n' [N1 N2]]; [congruence|].
    destruct (parent n') as [q|] eqn:Hq'; [|congruence].
    destruct (proj1 (Hc q)) as [m [C1 C2]]; [exists n'; auto|congruence].
Qed.

Lemma frame_head h a v v' s s' u : hist_inv h v s -> hist_inv (h ++ [a]) v' s' -> ~ added h (tag_of a) -> added h u ->
  (is_head (h ++ [a]) u <-> is_head h u) -> same_head v v' u.
Proof.
  intros I I' Hn Ha Hc. rewrite !(view_get _ HL).
  enough (view HL (heads v') u = view HL (heads v) u) as -> by reflexivity.
  pose proof (h_core _ _ _ _ _ _ _ _ _ _ _ I) as C. pose proof (h_core _ _ _ _ _ _ _ _ _ _ _ I') as C'.
  pose proof (heads_view re_w tk HS DS TR HL DL TL _ _ _ u I) as W.
  pose proof (heads_view re_w tk HS DS TR HL DL TL _ _ _ u I') as W'.
  destruct (view HL (heads v) u) as [b|] eqn:B, (view HL (heads v') u) as [b'|] eqn:B'; [| | |reflexivity].
  - rewrite <- B, <- B'. pose proof (proj1 W ltac:(discriminate)) as Hh. pose proof (proj1 W' ltac:(discriminate)) as Hh'.
    destruct (dget s u) as [n|] eqn:Hu; [|apply (known_added re_w tk HS DS TR HL DL TL _ _ _ _ I) in Hu; contradiction].
    destruct (dget s' u) as [n'|] eqn:Hu'.
    2: { apply (known_added re_w tk HS DS TR HL DL TL _ _ _ _ I') in Hu'. apply is_head_added in Hh'; contradiction. }
    rewrite (c_head _ _ _ _ _ _ _ _ _ _ _ _ C u n Hu) by (now apply (h_head _ _ _ _ _ _ _ _ _ _ _ I u n)).
    rewrite (c_head _ _ _ _ _ _ _ _ _ _ _ _ C' u n' Hu') by (now apply (h_head _ _ _ _ _ _ _ _ _ _ _ I' u n')).
    now apply V_of_old.
  - exfalso. apply (proj2 W'); [|reflexivity]. apply Hc, W. discriminate.
  - exfalso. apply (proj2 W); [|reflexivity]. apply Hc, W'. discriminate.
Qed.

Theorem frame h tag b base : tk <> KLine -> fresh tk (h ++ [(tag, b, base)]) ->
  let v := run v_empty h in
  let v' := run v_empty (h ++ [(tag, b, base)]) in
  match base with
  | Some x => is_head h x -> exists sp, added h sp /\
      tr_path_to TR (tree v') tag = Ok (Some [tag]) /\
      (forall u p, added h u -> tr_path_to TR (tree v) u = Ok (Some p) -> ~ In x p -> same_path v v' u) /\
      (forall u p q, added h u -> tr_path_to TR (tree v) u = Ok (Some (p ++ sp :: q)) ->
         tr_path_to TR (tree v') u = Ok (Some (tag :: sp :: q))) /\
      (forall u p, added h u -> tr_path_to TR (tree v) u = Ok (Some p) -> In x p -> ~ In sp p ->
         tr_path_to TR (tree v') u = Ok (Some (tag :: p))) /\
      (forall u, added h u -> u <> x -> same_head v v' u) /\
      (forall u, added h u -> u <> x -> u <> sp -> same_diff v v' u)
  | None => True
  end /\
  ((forall x, base = Some x -> ~ is_head h x) ->
   forall u, added h u -> same_path v v' u /\ same_head v v' u /\ same_diff v v' u).
Proof.
  intros Hk F v v'. set (a := (tag, b, base)) in *.
  destruct (fresh_snoc _ _ _ F) as [F' [Hna [Hb _]]]. change (tag_of a) with tag in Hna. change (base_of a) with base in Hb.
  destruct (hist_ok re_w tk HS DS TR HL DL TL h Hk F') as [s I]. fold v in I.
  destruct (hist_step re_w tk HS DS TR HL DL TL h _ s a I F (or_introl Hk)) as [[s' [I' Hch]] _].
  unfold v in I'. rewrite <- run_snoc in I'. fold v' in I'. change (base_of a) with base in Hch. change (tag_of a) with tag in Hch.
  pose proof (c_rep _ _ _ _ _ _ _ _ _ _ _ _ (h_core _ _ _ _ _ _ _ _ _ _ _ I)) as R.
  pose proof (c_rep _ _ _ _ _ _ _ _ _ _ _ _ (h_core _ _ _ _ _ _ _ _ _ _ _ I')) as R'.
  assert (Kn : forall t, dget s t <> None -> dget s' t <> None).
  { intros t Ht. rewrite (known_added re_w tk HS DS TR HL DL TL _ _ _ t I').
    intros Hc; apply Hc. unfold added. rewrite map_app, in_app_iff. left.
    destruct (in_dec T_dec t (map tag_of h)) as [|Hn]; [assumption|].
    exfalso; apply Ht. now apply (known_added re_w tk HS DS TR HL DL TL _ _ _ t I). }
  assert (Ntag : dget s tag = None) by (now apply (known_added re_w tk HS DS TR HL DL TL _ _ _ _ I)).
  assert (Up : forall u, added h u -> exists l, up s u l /\ tr_path_to TR (tree v) u = Ok (Some (rev l))).
  { intros u Hu. destruct (inv_up re_w tk HS DS TR HL DL TL h _ s u I Hu) as [l Hl].
    exists l; split; [exact Hl|]. now apply (rep_path _ TL _ s). }
  assert (Uq : forall u p, added h u -> tr_path_to TR (tree v) u = Ok (Some p) -> up s u (rev p)).
  { intros u p Hu Hp. destruct (Up u Hu) as [l [U H]]. assert (p = rev l) by congruence. subst p. now rewrite rev_involutive. }
  destruct Hch as [[Hbad Hch]|[x [p [Hx [Hhx [Hw Hch]]]]]].
  - split; [destruct base as [x|]; [contradiction|exact Logic.I]|]. intros _ u Hu. split; [|split].
    + destruct (Up u Hu) as [l [U H]]. rewrite H. apply (rep_path _ TL _ s'); [exact R'|].
      apply (up_same s s'); auto.
    + apply (frame_head h a v v' s s' u I I' Hna Hu). rewrite is_head_snoc by assumption. change (base_of a) with base. change (tag_of a) with tag.
      split; [intros [H|[H _]]; [subst u; contradiction|exact H]|].
      intros H; right; split; [exact H|]. destruct base as [x|]; [|discriminate]. intros [= ->]; contradiction.
    + apply (frame_diff h a v v' s s' u I I' Hna Hu). intros q; apply Hch.
  - rewrite Hx in *. split; [|intros H; exfalso; eapply H; eauto]. intros _.
    destruct (dget s x) as [n|] eqn:Hn.
    2: { apply (known_added re_w tk HS DS TR HL DL TL _ _ _ _ I) in Hn. apply is_head_added in Hhx. contradiction. }
    assert (Hp : parent n = None) by (now apply (h_head _ _ _ _ _ _ _ _ _ _ _ I x n)).
    set (sp := last p x) in *. exists sp.
    assert (Root : exists n', dget s' tag = Some n' /\ parent n' = None).
    { destruct (dget s' tag) as [n'|] eqn:Hn'.
      2: { apply (known_added re_w tk HS DS TR HL DL TL _ _ _ _ I') in Hn'. exfalso; apply Hn'.
           unfold added; rewrite map_app, in_app_iff; right; now left. }
      exists n'; split; [reflexivity|]. apply (h_head _ _ _ _ _ _ _ _ _ _ _ I' tag n' Hn').
      exists h, b, (base_of a), []. split; [reflexivity|intros []]. }
    destruct Root as [n' [Hn' Hp']].
    pose proof (proj1 Hw) as Hd.
    assert (Chain : exists l, up s sp (l ++ [x])).
    { destruct (down_up_chain s x p Hd [x]) as [m [Hm _]]; [now apply up_root with n|].
      exact (ex_intro _ _ Hm). }
    destruct Chain as [lsp Chain].
    assert (Asp : added h sp).
    { destruct (in_dec T_dec sp (map tag_of h)) as [|Hns]; [assumption|].
      apply (known_added re_w tk HS DS TR HL DL TL _ _ _ sp I) in Hns. apply up_known in Chain. contradiction. }
    assert (Cx : child_of s' x tag) by (apply Hch; auto).
    assert (Csp : child_of s' sp tag) by (apply Hch; auto).
    assert (Old : forall c q, c <> x -> c <> sp -> (child_of s' c q <-> child_of s c q)).
    { intros c q H1 H2. rewrite Hch. split; [|auto]. intros [[_ [?|?]]|[_ [_ ?]]]; [contradiction|contradiction|assumption]. }
    assert (SpX : forall t l, up s t l -> In sp l -> In x l).
    { intros t l U Hin. apply in_split in Hin as [l1 [l2 ->]].
      pose proof (up_suffix _ _ _ _ _ U) as U2. pose proof (up_det _ _ _ U2 _ Chain) as Hq. rewrite Hq.
      rewrite !in_app_iff. right; right; now left. }
    split; [exact Asp|]. split; [|split; [|split; [|split; [|split]]]].
    + apply (rep_path _ TL _ s' tag [tag] R'). now apply up_root with n'.
    + intros u pu Hu Hpu Hnx. pose proof (Uq u pu Hu Hpu) as U. rewrite Hpu.
      rewrite <- (rev_involutive pu) at 1. apply (rep_path _ TL _ s' u (rev pu) R').
      apply (up_same s s' Kn u _ U). intros c q Hc. apply Old; intros ->; apply Hnx; apply in_rev.
      * exact Hc.
      * now apply (SpX u _ U).
    + intros u p0 q Hu Hpu. pose proof (Uq u _ Hu Hpu) as U. rewrite rev_app_distr in U; cbn [rev] in U.
      rewrite <- app_assoc in U; cbn [app] in U.
      replace (tag :: sp :: q) with (rev (rev q ++ [sp; tag])) by (rewrite rev_app_distr, rev_involutive; reflexivity).
      apply (rep_path _ TL _ s' u _ R'). apply (up_moved s s' sp tag n' Hn' Hp' Csp _ _ _ U).
      intros c r Hc Hcc. pose proof (up_NoDup _ _ _ U) as N. apply Old; [| |exact Hcc].
      * intros ->. destruct Hcc as [m [M1 M2]]. congruence.
      * intros ->. apply NoDup_remove_2 in N. apply N. rewrite in_app_iff; now left.
    + intros u pu Hu Hpu Hinx Hnsp. pose proof (Uq u _ Hu Hpu) as U.
      apply in_rev, in_split in Hinx as [l1 [l2 Hl]]. rewrite Hl in U.
      pose proof (up_to_root _ _ _ _ _ _ U Hn Hp) as ->.
      assert (Hq : pu = x :: rev l1) by (rewrite <- (rev_involutive pu), Hl, rev_app_distr; reflexivity).
      replace (tag :: pu) with (rev (l1 ++ [x; tag])) by (rewrite rev_app_distr, Hq; reflexivity).
      apply (rep_path _ TL _ s' u _ R'). apply (up_moved s s' x tag n' Hn' Hp' Cx _ _ _ U).
      intros c r Hc Hcc. apply Old; [| |exact Hcc].
      * intros ->. destruct Hcc as [m [M1 M2]]. congruence.
      * intros ->. apply Hnsp. apply in_rev. rewrite Hl, in_app_iff; now left.
    + intros u Hu Hux. apply (frame_head h a v v' s s' u I I' Hna Hu).
      rewrite is_head_snoc by (first [assumption|unfold a; cbn; congruence]).
      unfold a; cbn [tag_of base_of fst snd]. rewrite Hx.
      split; [intros [H|[H _]]; [subst u; contradiction|exact H]|]. intros H; right; split; [exact H|congruence].
    + intros u Hu Hux Husp. apply (frame_diff h a v v' s s' u I I' Hna Hu). intros q; now apply Old.
Qed.
End H.

Section Both.
Context {K : Type} {E : Teq K} {O : TeqOk K}.
Variable re_w : Z -> bool.
Variable tk : tkind.
Notation D := (dict_store K).
Notation C := (db_store K).
Notation M := (memory_tree K).
Notation T := (db_tree K).

Lemma same_lookup (d d' : dict K (list Z)) u : s_get D d' u = s_get D d u -> dget d' u = dget d u.
Proof. cbn. destruct (dget d' u), (dget d u); congruence. Qed.

Theorem frame_memory h tag b x : tk <> KLine -> fresh tk (h ++ [(tag, b, Some x)]) -> is_head h x ->
  let v := run re_w tk D D M v_empty h in
  let v' := run re_w tk D D M v_empty (h ++ [(tag, b, Some x)]) in
  exists sp, added h sp /\ m_path_to (tree v') tag = Ok (Some [tag]) /\
    (forall u p, added h u -> m_path_to (tree v) u = Ok (Some p) -> ~ In x p ->
       m_path_to (tree v') u = Ok (Some p)) /\
    (forall u p q, added h u -> m_path_to (tree v) u = Ok (Some (p ++ sp :: q)) ->
       m_path_to (tree v') u = Ok (Some (tag :: sp :: q))) /\
    (forall u p, added h u -> m_path_to (tree v) u = Ok (Some p) -> In x p -> ~ In sp p ->
       m_path_to (tree v') u = Ok (Some (tag :: p))) /\
    (forall u, added h u -> u <> x -> dget (heads v') u = dget (heads v) u) /\
    (forall u, added h u -> u <> x -> u <> sp -> dget (diffs v') u = dget (diffs v) u).
Proof.
  intros Hk F Hx v v'.
  destruct (frame re_w tk D D M dict_law dict_law memory_law h tag b (Some x) Hk F) as [Q _].
  destruct (Q Hx) as [sp [A [B [P1 [P2 [P3 [P4 P5]]]]]]]. exists sp.
  split; [exact A|]. split; [exact B|]. split; [intros u p Hu Hp Hn; etransitivity; [exact (P1 u p Hu Hp Hn)|exact Hp]|].
  split; [exact P2|]. split; [exact P3|]. split; intros; apply same_lookup; auto.
Qed.
Theorem frame_db place1 place2 h tag b x : tk <> KLine -> fresh tk (h ++ [(tag, b, Some x)]) -> is_head h x ->
  let v := run re_w tk (C place1) (C place2) T v_empty h in
  let v' := run re_w tk (C place1) (C place2) T v_empty (h ++ [(tag, b, Some x)]) in
  exists sp, added h sp /\ d_path_to (tree v') tag = Ok (Some [tag]) /\
    (forall u p, added h u -> d_path_to (tree v) u = Ok (Some p) -> ~ In x p ->
       d_path_to (tree v') u = Ok (Some p)) /\
    (forall u p q, added h u -> d_path_to (tree v) u = Ok (Some (p ++ sp :: q)) ->
       d_path_to (tree v') u = Ok (Some (tag :: sp :: q))) /\
    (forall u p, added h u -> d_path_to (tree v) u = Ok (Some p) -> In x p -> ~ In sp p ->
       d_path_to (tree v') u = Ok (Some (tag :: p))) /\
    (forall u, added h u -> u <> x -> s_get (C place1) (heads v') u = s_get (C place1) (heads v) u) /\
    (forall u, added h u -> u <> x -> u <> sp -> s_get (C place2) (diffs v') u = s_get (C place2) (diffs v) u).
Proof.
  intros Hk F Hx v v'.
  destruct (frame re_w tk (C place1) (C place2) T (db_store_law place1) (db_store_law place2) db_law h tag b (Some x) Hk F) as [Q _].
  destruct (Q Hx) as [sp [A [B [P1 [P2 [P3 [P4 P5]]]]]]]. exists sp.
  split; [exact A|]. split; [exact B|]. split; [intros u p Hu Hp Hn; etransitivity; [exact (P1 u p Hu Hp Hn)|exact Hp]|].
  split; [exact P2|]. split; [exact P3|]. split; [exact P4|exact P5].
Qed.
Theorem frame_none_memory h tag b base : tk <> KLine -> fresh tk (h ++ [(tag, b, base)]) ->
  (forall x, base = Some x -> ~ is_head h x) ->
  let v := run re_w tk D D M v_empty h in
  let v' := run re_w tk D D M v_empty (h ++ [(tag, b, base)]) in
  forall u, added h u -> m_path_to (tree v') u = m_path_to (tree v) u /\
    dget (heads v') u = dget (heads v) u /\ dget (diffs v') u = dget (diffs v) u.
Proof.
  intros Hk F Hx v v' u Hu.
  destruct (frame re_w tk D D M dict_law dict_law memory_law h tag b base Hk F) as [_ Q].
  destruct (Q Hx u Hu) as [A [B G]]. split; [exact A|]. split; apply same_lookup; auto.
Qed.
Theorem frame_none_db place1 place2 h tag b base : tk <> KLine -> fresh tk (h ++ [(tag, b, base)]) ->
  (forall x, base = Some x -> ~ is_head h x) ->
  let v := run re_w tk (C place1) (C place2) T v_empty h in
  let v' := run re_w tk (C place1) (C place2) T v_empty (h ++ [(tag, b, base)]) in
  forall u, added h u -> d_path_to (tree v') u = d_path_to (tree v) u /\
    s_get (C place1) (heads v') u = s_get (C place1) (heads v) u /\
    s_get (C place2) (diffs v') u = s_get (C place2) (diffs v) u.
Proof.
  intros Hk F Hx v v'.
  exact (proj2 (frame re_w tk (C place1) (C place2) T (db_store_law place1) (db_store_law place2) db_law h tag b base Hk F) Hx).
Qed.
End Both.
