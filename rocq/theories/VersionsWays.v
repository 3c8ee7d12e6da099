(** The ways of retrievals, exactly (C120). *)
From Coq Require Import ZArith Lia Permutation.
From Verif Require Import Base Changesets Serialize Tokenizers SpecTokenizers Tree SpecTree TreeProofs TreeExact
  Versions SpecVersions SpecLine VersionsInv VersionsProofs TreeComb TreeShape TreeRake SpecWays WaysNumbers TreeWays
  DbTree DbTreeProofs SpecDb DbVersions VersionsShape.
Local Open Scope nat_scope.

Section H.
Context {K : Type} {E : Teq K} {O : TeqOk K}.
Variable re_w : Z -> bool.
Variable tk : tkind.
Variables HS DS : store K.
Variable TR : tree_impl K.
Variable HL : store_law HS.
Variable DL : store_law DS.
Variable TL : tree_law TR.
Context {TX : Exact TL}.
Notation run := (run re_w tk HS DS TR).
Notation hist_inv := (hist_inv re_w tk HS DS TR HL DL TL).

Lemma line_head (h : list (adding K)) x ls : line h x ls -> hd_error ls = Some x.
Proof. induction 1; auto. Qed.

Lemma way_up h x ls s : hist_inv h (run v_empty h) s -> is_head h x -> hd_error ls = Some x -> hung s ls -> NoDup ls ->
  forall i p, way (length ls) i p -> forall t, numbers ls i t -> exists q, Forall2 (numbers ls) p q /\ up s t (rev q).
Proof.
  intros I Hx Hd Hu N i p. induction 1 as [i L|i j p H W IH]; intros t Hi.
  - assert (t = x) as ->.
    { destruct ls as [|y ls]; [discriminate|]. injection Hd as ->.
      assert (Q : nth_error (rev (x :: ls)) (length (x :: ls) - 1) = Some x) by now apply nth_rev.
      unfold numbers in Hi. replace i with (length (x :: ls) - 1) in Hi by lia. congruence. }
    destruct (dget s x) as [n|] eqn:Hn.
    2: { apply (known_added re_w tk HS DS TR HL DL TL _ _ _ _ I) in Hn. apply is_head_added in Hx. contradiction. }
    exists [x]. split; [constructor; [exact Hi|constructor]|]. eapply up_root; [exact Hn|]. now apply (h_head _ _ _ _ _ _ _ _ _ _ _ I x n).
  - pose proof (hangs_up _ _ _ H) as U. destruct (nth_error (rev ls) j) as [u|] eqn:Hj.
    2: { apply nth_error_None in Hj. rewrite rev_length in Hj. lia. }
    destruct (IH u Hj) as [q [F Up]]. exists (q ++ [t]). split; [apply Forall2_app; [exact F|constructor; [exact Hi|constructor]]|].
    rewrite rev_app_distr. cbn [rev app]. apply (Hu i j t u Hi Hj) in H as [n [A B]]. eapply up_step; eauto.
Qed.

Lemma down_up_whole (s : nodes K) t p : down s t p -> forall l, up s t (t :: l) -> up s (last p t) (rev p ++ l).
Proof.
  induction 1 as [t H|t c p [n [Hn Hp]] H IH]; intros l Hl; [exact Hl|].
  destruct (down_cons _ _ _ H) as [q ->].
  assert (Hc : up s c (c :: t :: l)) by (eapply up_step; eauto). pose proof (IH _ Hc) as Z.
  replace (last (t :: c :: q) t) with (last (c :: q) c) by (cbn; destruct q; [reflexivity|apply last_cons_any]).
  cbn [rev] in *. rewrite <- !app_assoc in *. exact Z.
Qed.

Theorem exact_ways h : tk <> KLine -> fresh tk h ->
  forall x ls, is_head h x -> line h x ls ->
    (forall i t p, numbers ls i t -> way (length ls) i p -> exists q,
       tr_path_to TR (tree (run v_empty h)) t = Ok (Some q) /\ Forall2 (numbers ls) p q) /\
    (exists y p sp q, moves (length ls) y /\ way (length ls) y p /\ numbers ls y sp /\ Forall2 (numbers ls) p q /\
       tr_get_split TR (tree (run v_empty h)) x = Ok (sp, q)).
Proof.
  intros Hk F x ls Hx Ln. destruct (hist_shaped re_w tk HS DS TR HL DL TL h Hk F) as [s [I Cb]].
  pose proof (c_rep _ _ _ _ _ _ _ _ _ _ _ _ (h_core _ _ _ _ _ _ _ _ _ _ _ I)) as R.
  pose proof (rep_ok _ TL _ _ R) as T. destruct (dget s x) as [n|] eqn:Hn.
  2: { apply (known_added re_w tk HS DS TR HL DL TL _ _ _ _ I) in Hn. apply is_head_added in Hx. contradiction. }
  assert (Hp : parent n = None) by (now apply (h_head _ _ _ _ _ _ _ _ _ _ _ I x n)).
  destruct (Cb x n Hn Hp) as [l [ls' [Rl [Fx [Ln' [P [Ph [_ [[k Sp] Hu]]]]]]]]].
  assert (ls' = ls) by (apply (line_unique h x); [apply F|exact Ln'|exact Ln]). subst ls'.
  assert (N : NoDup ls) by apply (Permutation_NoDup P), Rl. pose proof (line_head h x ls Ln) as Hd.
  assert (Path : forall i t p, numbers ls i t -> way (length ls) i p -> exists q, up s t (rev q) /\ Forall2 (numbers ls) p q).
  { intros i t p Hi W. destruct (way_up h x ls s I Hx Hd Hu N i p W t Hi) as [q [A B]]. eauto. }
  split.
  - intros i t p Hi W. destruct (Path i t p Hi W) as [q [A B]]. exists q. rewrite (rep_path _ TL _ s t _ R A), rev_involutive. auto.
  - destruct (rep_way _ TL _ s x n R Hn) as [p [Hs Hw]].
    destruct (phase_moves s x p l ls k T (inv_numbered re_w tk HS DS TR HL DL TL h _ s F I) Rl Ph Fx Hw Sp P Hu) as [y [My Hy]].
    assert (Ly : y < length ls) by (rewrite <- rev_length; apply nth_error_Some; congruence).
    destruct (way_exists _ _ Ly) as [w W]. destruct (Path y (last p x) w Hy W) as [q [A B]].
    exists y, w, (last p x), q. split; [exact My|]. split; [exact W|]. split; [exact Hy|]. split; [exact B|]. rewrite Hs. f_equal. f_equal.
    pose proof (split_way_down _ _ _ _ Hw) as Dn.
    pose proof (down_up_whole _ _ _ Dn [] (root_up _ _ _ Hn Hp)) as Z. rewrite app_nil_r in Z.
    pose proof (up_fun _ _ _ Z _ A) as Q. rewrite <- (rev_involutive p), Q. apply rev_involutive.
Qed.
End H.

Section Both.
Context {K : Type} {E : Teq K} {O : TeqOk K}.
Variable re_w : Z -> bool.
Variable tk : tkind.
Notation D := (dict_store K).
Notation C := (db_store K).
Notation M := (memory_tree K).
Notation T := (db_tree K).

Theorem ways_memory h : tk <> KLine -> fresh tk h ->
  let s := tree (run re_w tk D D M v_empty h) in
  forall x ls, is_head h x -> line h x ls ->
    (forall i t p, numbers ls i t -> way (length ls) i p -> exists q,
       m_path_to s t = Ok (Some q) /\ Forall2 (numbers ls) p q) /\
    (exists y p sp q, moves (length ls) y /\ way (length ls) y p /\ numbers ls y sp /\ Forall2 (numbers ls) p q /\
       m_get_split s x = Ok (sp, q)).
Proof. exact (exact_ways re_w tk D D M dict_law dict_law memory_law h). Qed.
Theorem ways_db place1 place2 h : tk <> KLine -> fresh tk h ->
  let s := tree (run re_w tk (C place1) (C place2) T v_empty h) in
  forall x ls, is_head h x -> line h x ls ->
    (forall i t p, numbers ls i t -> way (length ls) i p -> exists q,
       d_path_to s t = Ok (Some q) /\ Forall2 (numbers ls) p q) /\
    (exists y p sp q, moves (length ls) y /\ way (length ls) y p /\ numbers ls y sp /\ Forall2 (numbers ls) p q /\
       d_get_split s x = Ok (sp, q)).
Proof. exact (exact_ways re_w tk (C place1) (C place2) T (db_store_law place1) (db_store_law place2) db_law h). Qed.
End Both.

Theorem way_one m i : i < m -> exists! p, way m i p.
Proof. intros L. destruct (way_exists m i L) as [p W]. exists p. split; [exact W|]. apply way_fun, W. Qed.
Theorem hangs_one m i : i + 1 < m -> exists! j, hangs m i j.
Proof. intros L. destruct (hangs_exists m i L) as [j H]. exists j. split; [exact H|]. intros j'. apply hangs_fun, H. Qed.
