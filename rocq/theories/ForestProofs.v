(** The two trees do what they are told (C79). *)
From Coq Require Import Lia.
From Verif Require Import Base Tree SpecTree TreeProofs Versions DbTree DbTreeProofs SpecDb SpecForest.

Section Forest.
Context {K : Type} {E : Teq K} {O : TeqOk K}.
Notation table := (table K).
Implicit Type f : forest K.

(** * Ancestors *)
Lemma anc_known f t l : ancestors f t l -> dget f t <> None.
Proof. destruct 1; congruence. Qed.
Lemma anc_head f t l : ancestors f t l -> exists l', l = t :: l'.
Proof. destruct 1; eauto. Qed.
Lemma anc_fun f t l : ancestors f t l -> forall l', ancestors f t l' -> l = l'.
Proof.
  induction 1 as [t b H|t q b l H A IH]; intros l' A'; inversion A' as [? ? H'|? ? ? ? H' A'']; subst; try congruence.
  rewrite H in H'. injection H' as <- <-. f_equal. now apply IH.
Qed.
Lemma anc_mem f t l : ancestors f t l -> forall x, In x l -> exists l1 l2, l = l1 ++ l2 /\ ancestors f x l2.
Proof.
  induction 1 as [t b H|t q b l H A IH]; intros x I.
  - destruct I as [<-|[]]. exists [], [t]. split; [reflexivity|now apply anc_root with b].
  - destruct I as [<-|I].
    + exists [], (t :: l). split; [reflexivity|now apply anc_step with q b].
    + destruct (IH x I) as (l1 & l2 & -> & A2). now exists (t :: l1), l2.
Qed.
Lemma anc_tail f t q b l : dget f t = Some (Some q, b) -> ancestors f q l -> ~ In t l.
Proof.
  intros H A I. destruct (anc_mem f q l A t I) as (l1 & l2 & -> & A2).
  assert (X := anc_fun f t _ A2 _ (anc_step f t q b _ H A)).
  apply (f_equal (@length K)) in X. cbn [length] in X. rewrite app_length in X. lia.
Qed.
Lemma anc_NoDup f t l : ancestors f t l -> NoDup l.
Proof.
  induction 1 as [t b H|t q b l H A IH]; [repeat constructor; easy|].
  constructor; [eapply anc_tail; eauto|exact IH].
Qed.
Lemma anc_incl f t l : ancestors f t l -> incl l (dkeys f).
Proof.
  induction 1 as [t b H|t q b l H A IH]; intros x [<-|I]; try (now apply dget_Some_key in H); now apply IH.
Qed.
Lemma anc_length f t l : ancestors f t l -> length l <= length f.
Proof.
  intros A. rewrite <- (map_length fst f). apply NoDup_incl_length; [eapply anc_NoDup; eauto|exact (anc_incl f t l A)].
Qed.
(** after a new tag *)
Lemma anc_add f k b t l : dget f k = None -> ancestors f t l -> ancestors (dset f k (None, b)) t l.
Proof.
  intros N A. induction A as [t b' H|t q b' l H A IH].
  - apply anc_root with b'. rewrite dget_dset_other; [exact H|congruence].
  - apply anc_step with q b'; [|exact IH]. rewrite dget_dset_other; [exact H|congruence].
Qed.
(** after a move *)
Lemma anc_same f k v t l : ~ In k l -> ancestors f t l -> ancestors (dset f k v) t l.
Proof.
  intros N A. induction A as [t b' H|t q b' l H A IH].
  - apply anc_root with b'. rewrite dget_dset_other; [exact H|]. intros ->. apply N. now left.
  - apply anc_step with q b'; [|apply IH; intros I; apply N; now right].
    rewrite dget_dset_other; [exact H|]. intros ->. apply N. now left.
Qed.
Lemma anc_move f k q b lq : ancestors f q lq -> ~ In k lq ->
  forall t l, ancestors f t l -> exists l', ancestors (dset f k (Some q, b)) t l'.
Proof.
  intros Aq N.
  assert (Ak : ancestors (dset f k (Some q, b)) k (k :: lq)).
  { apply anc_step with q b; [apply dget_dset_same|now apply anc_same]. }
  intros t l A. induction A as [t b' H|t p b' l H A IH].
  - destruct (teq_spec k t) as [->|Q]; [eauto|]. exists [t]. apply anc_root with b'. now rewrite dget_dset_other.
  - destruct (teq_spec k t) as [->|Q]; [eauto|]. destruct IH as [l' IH]. exists (t :: l').
    apply anc_step with p b'; [now rewrite dget_dset_other|exact IH].
Qed.

(** * DBTree *)
Definition parent_right (t : table) (r : row K) : Prop :=
  match r_parent r, r_parent_rid r with
  | None, None => True
  | Some q, Some j => nth_error (map r_tag t) j = Some q
  | _, _ => False
  end.
Record holds (t : table) f : Prop := {
  h_tags : map r_tag t = dkeys f;
  h_nodup : NoDup (dkeys f);
  h_rows : forall i r, nth_error t i = Some r -> dget f (r_tag r) = Some (r_parent r, r_base r) /\ parent_right t r;
  h_forest : forall k, dget f k <> None -> exists l, ancestors f k l }.

Lemma key_row t f k : holds t f -> dget f k <> None -> exists i r, nth_error t i = Some r /\ r_tag r = k /\ row_of t k = Some (i, r).
Proof.
  intros H N. assert (I : In k (map r_tag t)).
  { rewrite (h_tags t f H). destruct (dget f k) eqn:X; [now apply dget_Some_key in X|congruence]. }
  apply In_nth_error in I as [i I]. destruct (row_at t i k I) as (r & R & <-). exists i, r. split; [exact R|]. split; [reflexivity|].
  apply row_of_ok; [rewrite (h_tags t f H); apply H|exact R].
Qed.
Lemma no_row t f k : holds t f -> dget f k = None -> row_of t k = None.
Proof.
  intros H N. unfold row_of. rewrite rid_of_none; [reflexivity|]. rewrite (h_tags t f H). now apply dget_None.
Qed.
Lemma holds_contains t f k : holds t f -> d_contains t k = dmem f k.
Proof.
  intros H. unfold d_contains. destruct (dmem f k) eqn:D.
  - destruct (key_row t f k H) as (i & r & _ & _ & ->); [|reflexivity]. apply dmem_In in D. intros N. now apply dget_None in N.
  - rewrite (no_row t f k H); [reflexivity|]. apply dget_None. intros I. apply dmem_In in I. congruence.
Qed.
Lemma holds_path t f u l : holds t f -> ancestors f u l -> forall i fuel path, nth_error (map r_tag t) i = Some u ->
  length l <= fuel -> d_path_loop fuel t (Some i) path = Ok (path ++ l).
Proof.
  intros H A. induction A as [u b Hu|u q b l Hu A IH]; intros i fuel path Hi Hf; cbn [length] in Hf;
    destruct (row_at t i u Hi) as (r & R & T); destruct (h_rows t f H i r R) as [D P]; rewrite T, Hu in D; injection D as D1 D2;
    (destruct fuel as [|fuel]; [lia|]); cbn [d_path_loop]; rewrite R, T; unfold parent_right in P; rewrite <- D1 in P.
  - destruct (r_parent_rid r); [contradiction|]. now destruct fuel.
  - destruct (r_parent_rid r) as [j|]; [|contradiction]. rewrite (IH j fuel _ P) by lia. now rewrite <- app_assoc.
Qed.
Lemma holds_path_to t f k l : holds t f -> ancestors f k l -> d_path_to t k = Ok (Some (rev l)).
Proof.
  intros H A. destruct (key_row t f k H (anc_known f k l A)) as (i & r & R & T & _).
  unfold d_path_to. rewrite (rid_of_ok t i k); [|rewrite (h_tags t f H); apply H|now rewrite <- T; apply tag_at].
  rewrite (holds_path t f k l H A i (length t) []); [reflexivity|now rewrite <- T; apply tag_at|].
  rewrite <- (map_length r_tag t), (h_tags t f H). unfold dkeys. rewrite map_length. now apply anc_length with k.
Qed.

(** the metrics do not matter *)
Lemma holds_metrics t f i h z : holds t f -> holds (lupd t i (set_row_metrics h z)) f.
Proof.
  intros H. assert (T : map r_tag (lupd t i (set_row_metrics h z)) = map r_tag t).
  { eapply rowwise_tags; [apply lupd_rowwise|]. intros j r. cbn beta. destruct (i =? j); reflexivity. }
  constructor; [rewrite T; apply H|apply H| |apply H].
  intros j r R. rewrite nth_error_lupd in R. unfold parent_right. rewrite T.
  destruct (nth_error t j) as [r0|] eqn:R0; [|destruct (i =? j); discriminate].
  destruct (h_rows t f H j r0 R0) as [D P]. destruct (i =? j); cbn in R; injection R as <-; now split.
Qed.
Lemma update_ends t f u l : holds t f -> ancestors f u l -> forall i fuel, nth_error (map r_tag t) i = Some u ->
  length l <= fuel -> exists t', d_update_loop fuel (Some i) t = Ok t' /\ holds t' f /\ map r_tag t' = map r_tag t.
Proof.
  intros H A. revert t H. induction A as [u b Hu|u q b l Hu A IH]; intros t H i fuel Hi Hf; cbn [length] in Hf;
    destruct (row_at t i u Hi) as (r & R & T); destruct (h_rows t f H i r R) as [D P]; rewrite T, Hu in D; injection D as D1 D2;
    (destruct fuel as [|fuel]; [lia|]); cbn [d_update_loop]; rewrite R; unfold parent_right in P; rewrite <- D1 in P;
    destruct (node_metrics t r) as [h z];
    (assert (H' := holds_metrics t f i h z H));
    (assert (T' : map r_tag (lupd t i (set_row_metrics h z)) = map r_tag t) by now rewrite (h_tags _ _ H'), (h_tags _ _ H)).
  - destruct (r_parent_rid r); [contradiction|]. destruct fuel; cbn [d_update_loop]; eauto.
  - destruct (r_parent_rid r) as [j|]; [|contradiction].
    destruct (IH _ H' j fuel) as (t' & U & Ht & Tt); [now rewrite T'|lia|]. exists t'. split; [exact U|]. split; [exact Ht|congruence].
Qed.
Lemma update_metrics_ends t f c : holds t f ->
  (match c with Some i => i < length t | None => True end) ->
  exists t', d_update_metrics c t = (t', Ok tt) /\ holds t' f /\ map r_tag t' = map r_tag t.
Proof.
  intros H L. unfold d_update_metrics. destruct c as [i|].
  - destruct (nth_error t i) as [r|] eqn:R; [|apply nth_error_None in R; lia].
    destruct (h_rows t f H i r R) as [D _]. destruct (h_forest t f H (r_tag r)) as [l A]; [congruence|].
    destruct (update_ends t f (r_tag r) l H A i (length t)) as (t' & -> & X); [now apply tag_at| |eauto].
    rewrite <- (map_length r_tag t), (h_tags t f H). unfold dkeys. rewrite map_length. now apply anc_length with (r_tag r).
  - destruct (length t); cbn [d_update_loop]; eauto.
Qed.

Lemma db_add t f k b : holds t f -> dget f k = None -> exists t', d_add k b t = (t', Ok tt) /\ holds t' (dset f k (None, b)).
Proof.
  intros H N. unfold d_add. rewrite (no_row t f k H N). eexists. split; [reflexivity|].
  assert (Hk : dkeys (dset f k (None, b)) = dkeys f ++ [k]).
  { rewrite dkeys_dset. destruct (dmem f k) eqn:D; [|reflexivity]. apply dmem_In in D. now apply dget_None in N. }
  constructor.
  - rewrite map_app, Hk, (h_tags t f H). reflexivity.
  - now apply NoDup_dset, H.
  - intros i r R. destruct (Nat.lt_ge_cases i (length t)) as [L|L].
    + rewrite nth_error_app1 in R by exact L. destruct (h_rows t f H i r R) as [D P]. split.
      * rewrite dget_dset_other; [exact D|congruence].
      * unfold parent_right in *. destruct (r_parent r), (r_parent_rid r) as [j|]; try exact P. rewrite map_app, nth_error_app1; [exact P|].
        apply nth_error_Some. congruence.
    + rewrite nth_error_app2 in R by exact L. destruct (i - length t) as [|m]; [|destruct m; discriminate]. injection R as <-. cbn.
      split; [apply dget_dset_same|exact I].
  - intros u Hu. destruct (teq_spec k u) as [->|Q].
    + exists [u]. apply anc_root with b. apply dget_dset_same.
    + rewrite dget_dset_other in Hu by exact Q. destruct (h_forest t f H u Hu) as [l A]. exists l. now apply anc_add.
Qed.

(** the table with the new parent, before the metrics are updated *)
Definition moved_table (t : table) (i : nat) (r : row K) (q : K) (j : nat) : table :=
  lupd (lupd (update_at (r_parent_rid r) (remove_if_child1 i) (update_at (r_parent_rid r) (remove_if_child0 i) t))
             i (set_parents (Some q) (Some j))) j
       (match r_parent r with None => set_child0 (Some i) | Some _ => set_child1 (Some i) end).
Lemma moved_rows t i r q j m r' : nth_error (moved_table t i r q j) m = Some r' ->
  exists r0, nth_error t m = Some r0 /\ r_tag r' = r_tag r0 /\ r_base r' = r_base r0 /\
    r_parent r' = (if i =? m then Some q else r_parent r0) /\ r_parent_rid r' = (if i =? m then Some j else r_parent_rid r0).
Proof.
  unfold moved_table. rewrite nth_error_lupd, nth_error_lupd.
  assert (U : forall c g (s : table) m, (forall r, r_tag (g r) = r_tag r /\ r_base (g r) = r_base r /\ r_parent (g r) = r_parent r /\ r_parent_rid (g r) = r_parent_rid r) ->
    forall r', nth_error (update_at c g s) m = Some r' -> exists r0, nth_error s m = Some r0 /\
      r_tag r' = r_tag r0 /\ r_base r' = r_base r0 /\ r_parent r' = r_parent r0 /\ r_parent_rid r' = r_parent_rid r0).
  { intros c g s n G x X. destruct c as [a|]; cbn [update_at] in X; [|eauto 10].
    rewrite nth_error_lupd in X. destruct (nth_error s n) as [y|]; [|destruct (a =? n); discriminate].
    exists y. split; [reflexivity|]. destruct (a =? n); cbn in X; injection X as <-; [apply G|auto]. }
  set (t2 := update_at _ _ _). intros H.
  destruct (nth_error t2 m) as [r2|] eqn:R2; [|destruct (j =? m), (i =? m); discriminate].
  apply U in R2 as (r1 & R1 & A1 & B1 & C1 & D1).
  2:{ intros x. unfold remove_if_child1. destruct (is_rid _ _); auto. }
  apply U in R1 as (r0 & R0 & A0 & B0 & C0 & D0).
  2:{ intros x. unfold remove_if_child0. destruct (is_rid _ _); auto. }
  exists r0. split; [exact R0|].
  destruct (j =? m), (i =? m); cbn in H; injection H as <-; destruct (r_parent r); cbn; repeat split; congruence.
Qed.
Lemma moved_tags t i r q j : map r_tag (moved_table t i r q j) = map r_tag t.
Proof.
  apply nth_error_ext_local. intros m. rewrite !nth_error_map.
  destruct (nth_error (moved_table t i r q j) m) as [r'|] eqn:R.
  - destruct (moved_rows t i r q j m r' R) as (r0 & -> & T & _). cbn. congruence.
  - apply nth_error_None in R. assert (L : length (moved_table t i r q j) = length t).
    { unfold moved_table. rewrite !lupd_length. destruct (r_parent_rid r); cbn [update_at]; now rewrite ?lupd_length. }
    rewrite L in R. apply nth_error_None in R. now rewrite R.
Qed.
Lemma removed_tags (t : table) c x :
  map r_tag (update_at c (remove_if_child1 x) (update_at c (remove_if_child0 x) t)) = map r_tag t.
Proof.
  destruct c as [i|]; [|reflexivity]. cbn [update_at].
  apply nth_error_ext_local. intros m. rewrite !nth_error_map, !nth_error_lupd.
  destruct (i =? m); [|reflexivity]. destruct (nth_error t m) as [r|]; [|reflexivity]. cbn [option_map]. f_equal.
  unfold remove_if_child1. destruct (is_rid _ x); cbn [set_child1 r_tag]; unfold remove_if_child0; now destruct (is_rid _ x).
Qed.
Lemma change_parent_eq t f k q i r j rq : holds t f -> nth_error t i = Some r -> r_tag r = k ->
  nth_error t j = Some rq -> r_tag rq = q ->
  d_change_parent k q t =
    match d_update_metrics (r_parent_rid r) (moved_table t i r q j) with
    | (t5, Err e) => (t5, Err e)
    | (t5, Ok _) => d_update_metrics (Some j) t5
    end.
Proof.
  intros H R T Rq Tq. unfold d_change_parent.
  assert (N : NoDup (map r_tag t)) by (rewrite (h_tags t f H); apply H).
  rewrite <- T, (row_of_ok t i r N R).
  rewrite (rid_of_ok _ j q).
  - reflexivity.
  - now rewrite removed_tags.
  - rewrite removed_tags, <- Tq. now apply tag_at.
Qed.
Lemma moved_holds t f k q i r j rq lq : holds t f -> nth_error t i = Some r -> r_tag r = k ->
  nth_error t j = Some rq -> r_tag rq = q -> ancestors f q lq -> ~ In k lq ->
  holds (moved_table t i r q j) (dset f k (Some q, r_base r)).
Proof.
  intros H R T Rq Tq A N. destruct (h_rows t f H i r R) as [D P]. rewrite T in D.
  constructor.
  - rewrite moved_tags, (h_tags t f H), dkeys_dset. now destruct (dmem f k) eqn:X; [|
      assert (~ In k (dkeys f)) by (intros I; apply dmem_In in I; congruence); apply dget_None in H0; congruence].
  - now apply NoDup_dset, H.
  - intros m r' R'. destruct (moved_rows t i r q j m r' R') as (r0 & R0 & T0 & B0 & C0 & D0).
    destruct (h_rows t f H m r0 R0) as [D' P']. unfold parent_right. rewrite moved_tags, T0, B0, C0, D0.
    destruct (Nat.eqb_spec i m) as [<-|Q].
    + rewrite R in R0. injection R0 as <-. rewrite T. split; [apply dget_dset_same|]. rewrite <- Tq. now apply tag_at.
    + split; [|exact P']. rewrite dget_dset_other; [exact D'|]. intros Hk. apply Q.
      apply (tags_inj t i m k); [rewrite (h_tags t f H); apply H|rewrite <- T; now apply tag_at|rewrite Hk; now apply tag_at].
  - intros u Hu. destruct (teq_spec k u) as [->|Q].
    + destruct (h_forest t f H u) as [l Al]; [congruence|]. apply (anc_move f u q (r_base r) lq A N u l Al).
    + rewrite dget_dset_other in Hu by exact Q. destruct (h_forest t f H u Hu) as [l Al].
      apply (anc_move f k q (r_base r) lq A N u l Al).
Qed.
Lemma rid_in t f i r : holds t f -> nth_error t i = Some r -> match r_parent_rid r with Some j => j < length t | None => True end.
Proof.
  intros H R. destruct (h_rows t f H i r R) as [_ P]. unfold parent_right in P. destruct (r_parent_rid r) as [j|]; [|exact I].
  destruct (r_parent r); [|contradiction]. rewrite <- (map_length r_tag t). apply nth_error_Some. congruence.
Qed.
Lemma db_move t f k q p b : holds t f -> dget f k = Some (p, b) -> dget f q <> None ->
  (forall l, ancestors f q l -> ~ In k l) ->
  exists t', d_change_parent k q t = (t', Ok tt) /\ holds t' (dset f k (Some q, b)).
Proof.
  intros H Hk Hq N. destruct (key_row t f k H) as (i & r & R & T & _); [congruence|].
  destruct (key_row t f q H Hq) as (j & rq & Rq & Tq & _). destruct (h_forest t f H q Hq) as [lq A].
  destruct (h_rows t f H i r R) as [D _]. rewrite T, Hk in D. injection D as Dp ->.
  rewrite (change_parent_eq t f k q i r j rq H R T Rq Tq).
  assert (M := moved_holds t f k q i r j rq lq H R T Rq Tq A (N lq A)).
  assert (L : length (moved_table t i r q j) = length t) by (rewrite <- (map_length r_tag), moved_tags; apply map_length).
  destruct (update_metrics_ends _ _ (r_parent_rid r) M) as (t5 & -> & H5 & T5).
  { assert (X := rid_in t f i r H R). now destruct (r_parent_rid r); rewrite ?L. }
  destruct (update_metrics_ends _ _ (Some j) H5) as (t6 & -> & H6 & _).
  { rewrite <- (map_length r_tag), T5, moved_tags, map_length. apply nth_error_Some. congruence. }
  eauto.
Qed.
Lemma db_step t f c : holds t f -> sound f c ->
  match told f c with
  | Some f' => exists t', tree_result (db_tree K) t c = (t', Ok tt) /\ holds t' f'
  | None => exists e, e <> OutOfFuel /\ tree_result (db_tree K) t c = (t, Err e)
  end.
Proof.
  intros H S. destruct c as [k b|k q]; cbn [told tree_result db_tree tr_add tr_change_parent].
  - destruct (dget f k) eqn:Hk; [|now apply db_add].
    exists IntegrityError. split; [discriminate|]. unfold d_add. destruct (key_row t f k H) as (i & r & _ & _ & ->); [congruence|reflexivity].
  - destruct (dget f k) as [[p b]|] eqn:Hk.
    + destruct (dget f q) eqn:Hq; [eapply db_move; eauto; [congruence|intros l A; apply S; [congruence|exact A]]|].
      exists TypeError. split; [discriminate|]. unfold d_change_parent.
      destruct (key_row t f k H) as (i & r & R & T & ->); [congruence|].
      rewrite rid_of_none; [reflexivity|].
      rewrite removed_tags, (h_tags t f H). now apply dget_None.
    + exists TypeError. split; [discriminate|]. unfold d_change_parent. now rewrite (no_row t f k H Hk).
Qed.

Lemma told_snoc l c : told_all (l ++ [c]) = match told (told_all l) c with Some f => f | None => told_all l end.
Proof. unfold told_all. now rewrite fold_left_app. Qed.
Lemma step_result (TR : tree_impl K) t c : tree_step TR t c = fst (tree_result TR t c).
Proof. now destruct c. Qed.
(** from single steps to all calls *)
Definition keeps (TR : tree_impl K) (P : forest K -> tree_call K -> Prop) (R : tree_t TR -> forest K -> Prop) : Prop :=
  R (tr_empty TR) [] /\
  forall t f c, R t f -> sound f c -> P f c ->
    match told f c with
    | Some f' => exists t', tree_result TR t c = (t', Ok tt) /\ R t' f'
    | None => exists e, e <> OutOfFuel /\ tree_result TR t c = (t, Err e)
    end.
Lemma reached TR P R : keeps TR P R -> forall l,
  (forall pre c post, l = pre ++ c :: post -> sound (told_all pre) c /\ P (told_all pre) c) ->
  R (tree_run TR l) (told_all l).
Proof.
  intros [R0 RS] l. induction l as [|c l IH] using rev_ind; intros Hl; [exact R0|].
  assert (Rl : R (tree_run TR l) (told_all l)).
  { apply IH. intros pre c' post ->. apply (Hl pre c' (post ++ [c])). now rewrite <- app_assoc. }
  destruct (Hl l c [] eq_refl) as [S Q]. specialize (RS _ _ c Rl S Q).
  unfold tree_run in *. rewrite fold_left_app, told_snoc. cbn [fold_left]. rewrite step_result.
  destruct (told (told_all l) c) as [f'|].
  - destruct RS as (t' & -> & H). exact H.
  - destruct RS as (e & _ & ->). exact Rl.
Qed.
Lemma by_steps TR P R : keeps TR P R ->
  (forall t f, R t f ->
     (forall k, tr_contains TR t k = dmem f k) /\
     (forall k p b, dget f k = Some (p, b) ->
        tr_base TR t k = Ok b /\ exists up, ancestors f k up /\ tr_path_to TR t k = Ok (Some (rev up)))) ->
  does_as_told TR P.
Proof.
  intros KP RA l Hl. assert (X := reached TR P R KP l Hl). destruct KP as [_ RS].
  cbn zeta. destruct (RA _ _ X) as [A B]. split; [exact A|]. split; [exact B|]. intros c S Q. specialize (RS _ _ c X S Q).
  destruct (told (told_all l) c).
  - destruct RS as (t' & -> & _). reflexivity.
  - exact RS.
Qed.
Lemma db_keeps : keeps (db_tree K) (fun _ _ => True) holds.
Proof.
  split.
  - constructor; [reflexivity|constructor| |]; [intros [|i] r X; discriminate|intros k X; now contradiction X].
  - intros t f c H S _. now apply db_step.
Qed.
Theorem db_as_told : does_as_told (db_tree K) (fun _ _ => True).
Proof.
  apply (by_steps (db_tree K) _ holds db_keeps).
  - intros t f H. split; [intros k; now apply holds_contains|]. intros k p b Hk. split.
    + destruct (key_row t f k H) as (i & r & R & T & Hr); [congruence|].
      cbn [db_tree tr_base]. unfold d_base_version. rewrite Hr. destruct (h_rows t f H i r R) as [D _]. rewrite T, Hk in D. congruence.
    + destruct (h_forest t f H k) as [l A]; [congruence|]. exists l. split; [exact A|]. now apply holds_path_to with f.
Qed.

(** * MemoryTree *)
Definition mholds (s : nodes K) f : Prop :=
  tree_ok s /\ forall k, dget f k = match dget s k with Some n => Some (parent n, base n) | None => None end.
Lemma mholds_up s f : mholds s f -> forall k l, up s k l -> ancestors f k l.
Proof.
  intros [_ H] k l U. induction U as [t n H1 H2|t n q l H1 H2 U IH].
  - apply anc_root with (base n). rewrite H, H1. now rewrite H2.
  - apply anc_step with q (base n); [|exact IH]. rewrite H, H1. now rewrite H2.
Qed.
Lemma m_step s f c : mholds s f -> sound f c -> plain f c ->
  match told f c with
  | Some f' => exists s', tree_result (memory_tree K) s c = (s', Ok tt) /\ mholds s' f'
  | None => exists e, e <> OutOfFuel /\ tree_result (memory_tree K) s c = (s, Err e)
  end.
Proof.
  intros H S P. pose proof H as [T D]. destruct c as [k b|k q]; cbn [told plain sound tree_result memory_tree tr_add tr_change_parent] in *.
  - rewrite P. assert (N : dget s k = None) by (rewrite D in P; now destruct (dget s k)).
    destruct (add_ok s k b T N) as (T' & G & _). exists (fst (m_add k b s)). split; [unfold m_add; reflexivity|].
    split; [exact T'|]. intros u. rewrite G. destruct (teq_spec k u) as [->|Q]; [apply dget_dset_same|].
    rewrite dget_dset_other by exact Q. apply D.
  - destruct (dget f k) as [[p b]|] eqn:Hk.
    + destruct (dget f q) eqn:Hq; [|exfalso; apply P; [discriminate|reflexivity]].
      assert (Dk := D k). rewrite Hk in Dk. destruct (dget s k) as [n0|] eqn:Hn; [|discriminate]. injection Dk as -> ->.
      destruct T as [SO M]. assert (F := proj1 (proj2 SO)). destruct (F q) as [lq U]; [rewrite D in Hq; now destruct (dget s q)|].
      destruct (change_parent_ok s k n0 q lq (conj SO M) Hn U) as (s3 & s' & E1 & T' & [_ MT] & SS).
      { apply S; [discriminate|]. now apply (mholds_up s f H). }
      exists s'. split; [exact E1|]. split; [exact T'|]. intros u. specialize (MT u). destruct SS as [_ SS]. specialize (SS u).
      rewrite MT in SS. destruct (teq_spec k u) as [->|Q].
      * rewrite Hn in SS. rewrite dget_dset_same. destruct (dget s' u) as [m|]; [|contradiction].
        destruct SS as (_ & A & _ & B). unfold moved in A, B; cbn [parent base] in A, B. rewrite teq_refl in A. congruence.
      * rewrite dget_dset_other by exact Q. rewrite D. destruct (dget s u) as [n|], (dget s' u) as [m|]; try contradiction; [|reflexivity].
        destruct SS as (_ & A & _ & B). unfold moved in A, B; cbn [parent base] in A, B.
        destruct (teq_spec k u); [contradiction|]. congruence.
    + exists KeyError. split; [discriminate|]. unfold m_change_parent. rewrite D in Hk. now destruct (dget s k).
Qed.
Lemma m_keeps : keeps (memory_tree K) plain mholds.
Proof.
  split; [split; [apply empty_ok|reflexivity]|]. intros t f c H S P. now apply m_step.
Qed.
Theorem memory_as_told : does_as_told (memory_tree K) plain.
Proof.
  apply (by_steps (memory_tree K) _ mholds m_keeps).
  - intros s f H. pose proof H as [T D]. split.
    + intros k. cbn [memory_tree tr_contains]. unfold m_contains, dmem. rewrite D. now destruct (dget s k).
    + intros k p b Hk. rewrite D in Hk. destruct (dget s k) as [n|] eqn:Hn; [|discriminate]. injection Hk as <- <-.
      cbn [memory_tree tr_base tr_path_to]. split; [unfold m_base_version; now rewrite Hn|].
      destruct T as [[_ [F _]] _]. destruct (F k) as [l U]; [congruence|]. exists l. split; [now apply (mholds_up s f H)|now apply path_to_ok].
Qed.

(** * Moves below itself never end *)
Definition circle (t : table) (c : list K) : Prop := forall k i, In k c -> nth_error (map r_tag t) i = Some k ->
  exists r q j, nth_error t i = Some r /\ r_parent_rid r = Some j /\ nth_error (map r_tag t) j = Some q /\ In q c.
Lemma circle_update c : forall fuel t k i, circle t c -> In k c -> nth_error (map r_tag t) i = Some k ->
  d_update_loop fuel (Some i) t = Err OutOfFuel.
Proof.
  induction fuel as [|fuel IH]; intros t k i C I Hi; destruct (C k i I Hi) as (r & q & j & R & P & Hj & Iq);
    cbn [d_update_loop]; rewrite R; [reflexivity|].
  destruct (node_metrics t r) as [h z]. rewrite P.
  assert (T' : map r_tag (lupd t i (set_row_metrics h z)) = map r_tag t).
  { eapply rowwise_tags; [apply lupd_rowwise|]. intros m x. cbn beta. destruct (i =? m); reflexivity. }
  apply (IH _ q j); [|exact Iq|now rewrite T'].
  intros k' i' I' Hi'. rewrite T' in *. destruct (C k' i' I' Hi') as (r' & q' & j' & R' & P' & X).
  destruct (Nat.eq_dec i i') as [<-|Q].
  - exists (set_row_metrics h z r'), q', j'. rewrite nth_error_lupd, Nat.eqb_refl, R'. auto.
  - exists r', q', j'. rewrite nth_error_lupd. destruct (Nat.eqb_spec i i'); [contradiction|]. auto.
Qed.

(** tags and parent rows are the same *)
Definition same_links (t t' : table) : Prop := forall m,
  option_map (fun r => (r_tag r, r_parent_rid r)) (nth_error t m) = option_map (fun r => (r_tag r, r_parent_rid r)) (nth_error t' m).
Lemma links_tags t t' : same_links t t' -> map r_tag t = map r_tag t'.
Proof.
  intros L. apply nth_error_ext_local. intros m. rewrite !nth_error_map. specialize (L m).
  destruct (nth_error t m), (nth_error t' m); try discriminate; [|reflexivity]. cbn in *. congruence.
Qed.
Lemma links_circle t t' c : same_links t t' -> circle t c -> circle t' c.
Proof.
  intros L C k i I Hi. rewrite <- (links_tags t t' L) in *. destruct (C k i I Hi) as (r & q & j & R & P & X).
  specialize (L i). rewrite R in L. destruct (nth_error t' i) as [r'|] eqn:R'; [|discriminate]. cbn in L. injection L as L1 L2.
  exists r', q, j. split; [reflexivity|]. split; [congruence|exact X].
Qed.
Lemma links_metrics t i h z : same_links t (lupd t i (set_row_metrics h z)).
Proof.
  intros m. rewrite nth_error_lupd. destruct (i =? m); [|reflexivity]. now destruct (nth_error t m).
Qed.
Definition rids_in (t : table) : Prop := forall m r j, nth_error t m = Some r -> r_parent_rid r = Some j -> j < length t.
Lemma update_links : forall fuel c t, rids_in t -> (match c with Some i => i < length t | None => True end) ->
  (exists t', d_update_loop fuel c t = Ok t' /\ same_links t t') \/ d_update_loop fuel c t = Err OutOfFuel.
Proof.
  induction fuel as [|fuel IH]; intros [i|] t R L; cbn [d_update_loop]; try (left; exists t; split; [reflexivity|intros m; reflexivity]);
    (destruct (nth_error t i) as [r|] eqn:Hi; [|apply nth_error_None in Hi; lia]); [now right|].
  destruct (node_metrics t r) as [h z]. set (t1 := lupd t i (set_row_metrics h z)).
  assert (L1 : length t1 = length t) by apply lupd_length.
  destruct (IH (r_parent_rid r) t1) as [(t' & U & S)|U]; rewrite ?U.
  - intros m r' j R' P'. rewrite L1. unfold t1 in R'. rewrite nth_error_lupd in R'.
    destruct (nth_error t m) as [r0|] eqn:R0; [|destruct (i =? m); discriminate]. apply (R m r0 j R0).
    destruct (i =? m); cbn in R'; injection R' as <-; exact P'.
  - destruct (r_parent_rid r) as [j|] eqn:P; [|exact I]. rewrite L1. now apply (R i r).
  - left. exists t'. split; [reflexivity|]. intros m. rewrite <- (S m). apply links_metrics.
  - now right.
Qed.
Lemma anc_circle f k q l : ancestors f q l -> In k l ->
  exists c, In q c /\ In k c /\ (forall x, In x c -> dget f x <> None) /\
    forall x, In x c -> x <> k -> exists p b, dget f x = Some (Some p, b) /\ In p c.
Proof.
  induction 1 as [t b H|t p b l H A IH]; intros I.
  - destruct I as [<-|[]]. exists [t]. split; [now left|]. split; [now left|]. split; [intros x [<-|[]]; congruence|].
    intros x [<-|[]] N; contradiction.
  - destruct (teq_spec t k) as [->|Q].
    + exists [k]. split; [now left|]. split; [now left|]. split; [intros x [<-|[]]; congruence|]. intros x [<-|[]] N; contradiction.
    + destruct I as [I|I]; [contradiction|]. destruct (IH I) as (c & Ip & Ik & Kn & C). exists (t :: c).
      split; [now left|]. split; [now right|]. split; [intros x [<-|J]; [congruence|now apply Kn]|].
      intros x [<-|J] N; [exists p, b; split; [exact H|now right]|]. destruct (C x J N) as (p' & b' & E1 & J'). exists p', b'. split; [exact E1|now right].
Qed.
Lemma db_cycle t f k q l : holds t f -> ancestors f q l -> In k l -> snd (d_change_parent k q t) = Err OutOfFuel.
Proof.
  intros H A I. destruct (anc_circle f k q l A I) as (c & Iq & Ik & Kn & C).
  destruct (key_row t f k H (Kn k Ik)) as (i & r & R & T & _). destruct (key_row t f q H (Kn q Iq)) as (j & rq & Rq & Tq & _).
  rewrite (change_parent_eq t f k q i r j rq H R T Rq Tq).
  assert (L : length (moved_table t i r q j) = length t) by (rewrite <- (map_length r_tag), moved_tags; apply map_length).
  assert (Lj : j < length t) by (apply nth_error_Some; congruence).
  assert (CM : circle (moved_table t i r q j) c).
  { intros x m Ix Hm. rewrite moved_tags in *. destruct (nth_error (moved_table t i r q j) m) as [r'|] eqn:R'.
    2:{ apply nth_error_None in R'. assert (nth_error (map r_tag t) m = None) by (apply nth_error_None; rewrite map_length; lia). congruence. }
    destruct (moved_rows t i r q j m r' R') as (r0 & R0 & _ & _ & _ & P'). exists r'.
    destruct (Nat.eqb_spec i m) as [<-|Q].
    - exists q, j. split; [reflexivity|]. split; [exact P'|]. split; [rewrite <- Tq; now apply tag_at|exact Iq].
    - assert (Hx : r_tag r0 = x) by (apply tag_at in R0; congruence).
      destruct (C x Ix) as (p & b & Hp & Ip).
      { intros ->. apply Q. apply (tags_inj t i m k); [rewrite (h_tags t f H); apply H|rewrite <- T; now apply tag_at|exact Hm]. }
      destruct (h_rows t f H m r0 R0) as [D P]. rewrite Hx, Hp in D. injection D as D _. unfold parent_right in P. rewrite <- D in P.
      destruct (r_parent_rid r0) as [jj|] eqn:J; [|contradiction]. exists p, jj. auto. }
  assert (RI : rids_in (moved_table t i r q j)).
  { intros m r' jj R' P'. rewrite L. destruct (moved_rows t i r q j m r' R') as (r0 & R0 & _ & _ & _ & P0). rewrite P' in P0.
    destruct (i =? m); [injection P0 as ->; exact Lj|]. assert (X := rid_in t f m r0 H R0). now rewrite <- P0 in X. }
  unfold d_update_metrics. destruct (update_links (length (moved_table t i r q j)) (r_parent_rid r) _ RI) as [(t5 & -> & S)| ->]; [|  |reflexivity].
  { rewrite L. exact (rid_in t f i r H R). }
  rewrite (circle_update c (length t5) t5 q j); [reflexivity|now apply links_circle with (moved_table t i r q j)|exact Iq|].
  rewrite <- (links_tags _ _ S), moved_tags, <- Tq. now apply tag_at.
Qed.

Definition mcircle (s : nodes K) (c : list K) : Prop :=
  (forall x, In x c -> exists n q, dget s x = Some n /\ parent n = Some q /\ In q c) /\
  (forall x n y, dget s x = Some n -> In y (children n) -> dget s y <> None).
Lemma mcircle_update c : forall fuel s x, mcircle s c -> In x c -> snd (update_metrics fuel (Some x) s) = Err OutOfFuel.
Proof.
  induction fuel as [|fuel IH]; intros s x [C D] I; [reflexivity|]. cbn [update_metrics].
  destruct (C x I) as (n & q & Hn & P & Iq). rewrite Hn.
  destruct (child_metrics_total s (children n)) as [h [z M]]; [intros y Y; now apply (D x n y)|]. rewrite M, P.
  apply IH; [|exact Iq]. split.
  - intros y Y. destruct (C y Y) as (m & p & Hm & Pm & Ip). destruct (teq_spec x y) as [->|Q].
    + exists (set_metrics n (h + 1) (z + 1)), q. rewrite dget_dset_same. auto.
    + exists m, p. rewrite dget_dset_other by exact Q. auto.
  - intros y m w Hy W. assert (K0 : dget s w <> None).
    { destruct (teq_spec x y) as [->|Q]; [rewrite dget_dset_same in Hy; injection Hy as <-; now apply (D y n w)|].
      rewrite dget_dset_other in Hy by exact Q. now apply (D y m w). }
    destruct (teq_spec x w) as [->|Q]; [rewrite dget_dset_same; discriminate|now rewrite dget_dset_other].
Qed.
Lemma m_cycle s f k q l : mholds s f -> ancestors f q l -> In k l -> snd (m_change_parent k (Some q) s) = Err OutOfFuel.
Proof.
  intros [[SO _] D] A I. destruct (anc_circle f k q l A I) as (c & Iq & Ik & Kn & C).
  assert (Kn' : forall x, In x c -> dget s x <> None) by (intros x X; specialize (Kn x X); rewrite D in Kn; now destruct (dget s x)).
  destruct SO as [N [F CR]].
  assert (CH : forall x n y, dget s x = Some n -> In y (children n) -> dget s y <> None).
  { intros x n y Hx Hy. destruct (CR x n Hx) as [_ X]. apply X in Hy as (m & Hm & _). congruence. }
  unfold m_change_parent. destruct (dget s k) as [n0|] eqn:Hk; [|now apply Kn' in Ik].
  set (one := match parent n0 with
              | None => Ok s
              | Some p => match dget s p with
                          | None => Err KeyError
                          | Some np => Ok (if mem_tag k (children np) then dset s p (set_children np (remove1 k (children np))) else s)
                          end
              end).
  assert (X : exists s1, one = Ok s1 /\ (forall x, match dget s x, dget s1 x with
     | Some n, Some n1 => parent n1 = parent n /\ incl (children n1) (children n) | None, None => True | _, _ => False end)).
  { assert (Id : forall x, match dget s x, dget s x with
     | Some n, Some n1 => parent n1 = parent n /\ incl (children n1) (children n) | None, None => True | _, _ => False end).
    { intros x. destruct (dget s x); [split; [reflexivity|apply incl_refl]|exact Logic.I]. }
    unfold one. destruct (parent n0) as [p|] eqn:P; [|exists s; split; [reflexivity|exact Id]].
    destruct (F k) as [lk U]; [congruence|]. inversion U as [? ? H1 H2|? ? p' ? H1 H2 U']; subst; [congruence|].
    assert (p' = p) by congruence. subst p'.
    destruct (dget s p) as [np|] eqn:Hp; [|inversion U'; congruence].
    eexists. split; [reflexivity|]. destruct (mem_tag k (children np)); [|exact Id].
    intros x. destruct (teq_spec p x) as [<-|Q]; [rewrite Hp, dget_dset_same; split; [reflexivity|]|rewrite dget_dset_other by exact Q; apply Id].
    cbn [set_children children]. intros y Y. destruct (CR p np Hp) as [ND _]. now apply (remove1_In k (children np) ND) in Y. }
  destruct X as (s1 & -> & H1).
  set (own := match dget s1 k with Some n => children n | None => children n0 end).
  assert (Own : incl own (children n0)).
  { unfold own. specialize (H1 k). rewrite Hk in H1. destruct (dget s1 k); [apply H1|contradiction]. }
  set (k' := set_children (set_parent n0 (Some q)) own).
  destruct (dget (dset s1 k k') q) as [nq|] eqn:Hq.
  2:{ exfalso. destruct (teq_spec k q) as [->|Q]; [rewrite dget_dset_same in Hq; discriminate|]. rewrite dget_dset_other in Hq by exact Q.
      specialize (H1 q). rewrite Hq in H1. specialize (Kn' q Iq). destruct (dget s q); [contradiction|congruence]. }
  set (s3 := dset (dset s1 k k') q (set_children nq (children nq ++ [k]))).
  assert (S3 : forall x, dget s3 x = match dget s x with
     | None => None | Some n => dget s3 x end /\ forall n, dget s x = Some n ->
       exists n3, dget s3 x = Some n3 /\ parent n3 = (if teq k x then Some q else parent n) /\
         forall y, In y (children n3) -> In y (children n) \/ y = k).
  { assert (S2 : forall x n, dget s x = Some n -> exists n2, dget (dset s1 k k') x = Some n2 /\ parent n2 = (if teq k x then Some q else parent n) /\
       incl (children n2) (children n)).
    { intros x n Hx. destruct (teq_spec k x) as [->|Q].
      - exists k'. rewrite dget_dset_same. split; [reflexivity|]. split; [reflexivity|]. rewrite Hk in Hx. injection Hx as <-. exact Own.
      - rewrite dget_dset_other by exact Q. specialize (H1 x). rewrite Hx in H1. destruct (dget s1 x) as [n1|]; [|contradiction].
        exists n1. destruct H1. auto. }
    assert (S2' : forall x, dget s x = None -> dget (dset s1 k k') x = None).
    { intros x Hx. assert (Q : k <> x) by congruence. rewrite dget_dset_other by exact Q. specialize (H1 x). rewrite Hx in H1.
      now destruct (dget s1 x). }
    intros x. split.
    - destruct (dget s x) eqn:Hx; [reflexivity|]. unfold s3. destruct (teq_spec q x) as [<-|Q].
      + apply S2' in Hx. congruence.
      + rewrite dget_dset_other by exact Q. now apply S2'.
    - intros n Hx. destruct (S2 x n Hx) as (n2 & G & P & Ch). unfold s3. destruct (teq_spec q x) as [<-|Q].
      + rewrite Hq in G. injection G as ->. rewrite dget_dset_same. eexists. split; [reflexivity|]. split; [exact P|].
        cbn [set_children children]. intros y Y. apply in_app_or in Y as [Y|[<-|[]]]; [left; now apply Ch|now right].
      + rewrite dget_dset_other by exact Q. exists n2. split; [exact G|]. split; [exact P|]. intros y Y. left. now apply Ch. }
  assert (MC : mcircle s3 c).
  { split.
    - intros x X. specialize (Kn' x X). destruct (dget s x) as [n|] eqn:Hx; [|congruence].
      destruct (S3 x) as [_ G]. destruct (G n Hx) as (n3 & G3 & P3 & _). exists n3.
      destruct (teq_spec k x) as [->|Q]; [exists q; auto|]. destruct (C x X) as (p & b & Hp & Ip); [congruence|].
      rewrite D, Hx in Hp. injection Hp as Hp _. exists p. split; [exact G3|]. split; [congruence|exact Ip].
    - intros x n3 y G3 Y. destruct (S3 x) as [G1 G]. destruct (dget s x) as [n|] eqn:Hx; [|congruence].
      destruct (G n eq_refl) as (m & Gm & _ & Ch). rewrite G3 in Gm. injection Gm as <-.
      assert (Hy : dget s y <> None) by (destruct (Ch y Y) as [Y'| ->]; [now apply (CH x n y)|congruence]).
      destruct (S3 y) as [_ Gy]. destruct (dget s y) as [ny|]; [|congruence]. destruct (Gy ny eq_refl) as (m & -> & _). discriminate. }
  assert (U := mcircle_update c (S (length s)) s3 q MC Iq). destruct (update_metrics (S (length s)) (Some q) s3) as [s4 r4].
  cbn [snd] in U. rewrite U. reflexivity.
Qed.
Theorem db_never_ends l : (forall pre c post, l = pre ++ c :: post -> sound (told_all pre) c) ->
  forall k q up, ancestors (told_all l) q up -> In k up ->
  snd (tree_result (db_tree K) (tree_run (db_tree K) l) (CallMove k q)) = Err OutOfFuel.
Proof.
  intros Hl k q up A I. apply (db_cycle _ (told_all l) k q up); [|exact A|exact I].
  apply (reached _ _ _ db_keeps). intros pre c post X. split; [now apply (Hl pre c post)|exact Logic.I].
Qed.
Theorem memory_never_ends l : (forall pre c post, l = pre ++ c :: post -> sound (told_all pre) c /\ plain (told_all pre) c) ->
  forall k q up, ancestors (told_all l) q up -> In k up ->
  snd (tree_result (memory_tree K) (tree_run (memory_tree K) l) (CallMove k q)) = Err OutOfFuel.
Proof.
  intros Hl k q up A I. apply (m_cycle _ (told_all l) k q up); [|exact A|exact I]. now apply (reached _ _ _ m_keeps).
Qed.
End Forest.
