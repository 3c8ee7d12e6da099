(** Objects of different names on one database do not influence each other (C76). *)
From Coq Require Import String Lia.
From Verif Require Import Base Tree Versions DbTree Markup Database SpecDatabase.
From Verif Require SpecDb DbVersions.
Local Open Scope Z_scope.
Local Open Scope list_scope.

Lemma same_char_fold a b : same_char a b <->
  (if (65 <=? a) && (a <=? 90) then a + 32 else a) = (if (65 <=? b) && (b <=? 90) then b + 32 else b).
Proof.
  unfold same_char. destruct (Z.leb_spec 65 a), (Z.leb_spec a 90), (Z.leb_spec 65 b), (Z.leb_spec b 90); cbn [andb]; lia.
Qed.
Lemma same_fold m n : same_name m n <-> fold_name m = fold_name n.
Proof.
  unfold same_name, fold_name. split.
  - induction 1 as [|a b m n H F IH]; [reflexivity|]. cbn [map]. f_equal; [now apply same_char_fold|exact IH].
  - revert n. induction m as [|a m IH]; intros [|b n] H; try discriminate; [constructor|].
    cbn [map] in H. injection H as H1 H2. constructor; [now apply same_char_fold|now apply IH].
Qed.
(** the three names of a tree count as one *)
Definition fam (n : list Z) : list Z :=
  if teq n graph_name || teq n index1 || teq n index2 then graph_name else n.
Lemma fam_graph : fam graph_name = graph_name. Proof. reflexivity. Qed.
Lemma fam_index1 : fam index1 = graph_name. Proof. reflexivity. Qed.
Lemma fam_index2 : fam index2 = graph_name. Proof. reflexivity. Qed.
Lemma fam_cases n : (fam n = n) \/ ((n = graph_name \/ n = index1 \/ n = index2) /\ fam n = graph_name).
Proof.
  unfold fam. destruct (teq_spec n graph_name) as [->|]; [right; auto|]. destruct (teq_spec n index1) as [->|]; [right; auto|].
  destruct (teq_spec n index2) as [->|]; [right; auto|]. now left.
Qed.
Lemma fam_related m n : fam (fold_name m) = fam (fold_name n) -> related m n.
Proof.
  assert (T : forall n, fold_name n = graph_name \/ fold_name n = index1 \/ fold_name n = index2 -> tree_name n).
  { intros x H. unfold tree_name. rewrite !same_fold. destruct H as [H|[H|H]]; rewrite H; auto. }
  assert (G : forall n, fam n = graph_name -> n = graph_name \/ n = index1 \/ n = index2).
  { intros x H. destruct (fam_cases x) as [E|[E _]]; [left; congruence|exact E]. }
  intros H. destruct (fam_cases (fold_name m)) as [Em|[Em Fm]].
  - destruct (fam_cases (fold_name n)) as [En|[En Fn]].
    + left. apply same_fold. congruence.
    + right. split; [apply T, G; congruence|now apply T].
  - right. split; [now apply T|apply T, G; congruence].
Qed.

Section Database.
Context {K V : Type} {E : Teq K}.
Notation database := (database (K := K) (V := V)).
Notation call := (call (K := K) (V := V)).

Definition my_key (c : call) : list Z := fam (fold_name (call_name c)).

Lemma upd_same (d : database) n r : upd d n r n = r.
Proof. unfold upd. now rewrite (proj2 (teq_ok n n) eq_refl). Qed.
Lemma upd_other (d : database) n m r : n <> m -> upd d n r m = d m.
Proof. intros H. unfold upd. destruct (teq_spec n m); [contradiction|reflexivity]. Qed.
Lemma upd_fam (d : database) n m r : fam n <> fam m -> upd d n r m = d m.
Proof. intros H. apply upd_other. congruence. Qed.
Lemma drop_index_fam (d : database) n m : fam n <> fam m -> drop_index d n m = d m.
Proof. intros H. unfold drop_index. destruct (d n) as [[]|]; try reflexivity. now apply upd_fam. Qed.
Lemma drop_fam (d : database) n m : fam n <> fam m -> drop d n m = d m.
Proof.
  intros H. unfold drop.
  assert (X : (if teq n graph_name then drop_index (drop_index (upd d n None) index1) index2 else upd d n None) m = d m).
  { destruct (teq_spec n graph_name) as [->|]; [|now apply upd_fam].
    rewrite fam_graph in H. rewrite !drop_index_fam by (rewrite ?fam_index1, ?fam_index2; exact H). apply upd_fam. now rewrite fam_graph. }
  destruct (d n) as [[]|]; try reflexivity; exact X.
Qed.
Lemma create_fam (d : database) n m r : fam n <> fam m -> fst (create d n r) m = d m.
Proof. intros H. unfold create. destruct (d n); [reflexivity|]. now apply upd_fam. Qed.

(** a call does not touch other names *)
Lemma run_frame c (d : database) m : my_key c <> fam m -> fst (run c d) m = d m.
Proof.
  unfold my_key. intros H.
  assert (R : forall n f, fam (fold_name n) <> fam m -> fst (on_rows d n f) m = d m).
  { intros n f N. unfold on_rows. destruct (d (fold_name n)) as [[t|t|]|]; try reflexivity.
    destruct (f t). cbn [fst]. now apply upd_fam. }
  assert (G : forall f, graph_name <> fam m -> fst (on_graph d f) m = d m).
  { intros f N. unfold on_graph. destruct (d graph_name) as [[t|t|]|]; try reflexivity.
    destruct (f t). cbn [fst]. apply upd_fam. now rewrite fam_graph. }
  destruct c; cbn [run call_name] in *; try (now apply R); try (now apply G).
  - unfold new_collection. destruct (create _ _ _) as [d' r] eqn:C. cbn [fst].
    change d' with (fst (d', r)). rewrite <- C, create_fam by exact H. now apply drop_fam.
  - change (fam (fold_name (str "graph"))) with graph_name in H. unfold new_tree.
    destruct (create (drop d graph_name) graph_name (RGraph [])) as [d1 r1] eqn:C1.
    assert (D1 : d1 m = d m).
    { change d1 with (fst (d1, r1)). rewrite <- C1, create_fam by exact H. now apply drop_fam. }
    destruct r1; [|exact D1].
    destruct (create d1 index1 RIndex) as [d2 r2] eqn:C2.
    assert (D2 : d2 m = d m).
    { change d2 with (fst (d2, r2)). now rewrite <- C2, create_fam by exact H. }
    destruct r2; [|exact D2].
    destruct (create d2 index2 RIndex) as [d3 r3] eqn:C3. cbn [fst].
    change d3 with (fst (d3, r3)). now rewrite <- C3, create_fam by exact H.
Qed.

(** a call depends only on its names *)
Definition agree (k : list Z) (d d' : database) : Prop := forall m, fam m = k -> d m = d' m.
Lemma agree_upd k d d' n r : agree k d d' -> agree k (upd d n r) (upd d' n r).
Proof. intros A m H. unfold upd. destruct (teq n m); [reflexivity|now apply A]. Qed.
Lemma agree_drop_index k d d' n : fam n = k -> agree k d d' -> agree k (drop_index d n) (drop_index d' n).
Proof. intros H A. unfold drop_index. rewrite <- (A n H). destruct (d n) as [[]|]; try exact A. now apply agree_upd. Qed.
Lemma agree_drop k d d' n : fam n = k -> agree k d d' -> agree k (drop d n) (drop d' n).
Proof.
  intros H A. unfold drop. rewrite <- (A n H).
  assert (X : agree k (if teq n graph_name then drop_index (drop_index (upd d n None) index1) index2 else upd d n None)
                      (if teq n graph_name then drop_index (drop_index (upd d' n None) index1) index2 else upd d' n None)).
  { destruct (teq_spec n graph_name) as [->|]; [|now apply agree_upd]. rewrite fam_graph in H. subst k.
    apply agree_drop_index; [reflexivity|]. apply agree_drop_index; [reflexivity|]. now apply agree_upd. }
  destruct (d n) as [[]|]; try exact A; exact X.
Qed.
Lemma agree_create k d d' n r : fam n = k -> agree k d d' ->
  agree k (fst (create d n r)) (fst (create d' n r)) /\ snd (create d n r) = snd (create d' n r).
Proof.
  intros H A. unfold create. rewrite <- (A n H). destruct (d n); [now split|]. split; [|reflexivity]. now apply agree_upd.
Qed.
Lemma run_agree c d d' : agree (my_key c) d d' ->
  agree (my_key c) (fst (run c d)) (fst (run c d')) /\ snd (run c d) = snd (run c d').
Proof.
  unfold my_key. intros A.
  assert (R : forall n f, agree (fam (fold_name n)) d d' ->
    agree (fam (fold_name n)) (fst (on_rows d n f)) (fst (on_rows d' n f)) /\ snd (on_rows d n f) = snd (on_rows d' n f)).
  { intros n f B. unfold on_rows. rewrite <- (B (fold_name n) eq_refl). destruct (d (fold_name n)) as [[t|t|]|]; try (now split).
    destruct (f t). cbn [fst snd]. split; [now apply agree_upd|reflexivity]. }
  assert (G : forall f, agree graph_name d d' ->
    agree graph_name (fst (on_graph d f)) (fst (on_graph d' f)) /\ snd (on_graph d f) = snd (on_graph d' f)).
  { intros f B. unfold on_graph. rewrite <- (B graph_name eq_refl). destruct (d graph_name) as [[t|t|]|]; try (now split).
    destruct (f t). cbn [fst snd]. split; [now apply agree_upd|reflexivity]. }
  destruct c; cbn [run call_name] in *; try (now apply R); try (now apply G).
  - unfold new_collection.
    destruct (agree_create (fam (fold_name n)) (drop d (fold_name n)) (drop d' (fold_name n)) (fold_name n) (RColl []) eq_refl) as [X Y].
    { now apply agree_drop. }
    destruct (create (drop d (fold_name n)) _ _), (create (drop d' (fold_name n)) _ _). cbn [fst snd] in *. subst. now split.
  - change (fam (fold_name (str "graph"))) with graph_name in *. unfold new_tree.
    destruct (agree_create graph_name (drop d graph_name) (drop d' graph_name) graph_name (RGraph []) eq_refl) as [X Y].
    { now apply agree_drop. }
    destruct (create (drop d graph_name) _ _) as [d1 r1], (create (drop d' graph_name) _ _) as [d1' r1']. cbn [fst snd] in *. subst r1'.
    destruct r1; [|now split].
    destruct (agree_create graph_name d1 d1' index1 RIndex eq_refl X) as [X2 Y2].
    destruct (create d1 _ _) as [d2 r2], (create d1' _ _) as [d2' r2']. cbn [fst snd] in *. subst r2'.
    destruct r2; [|now split].
    destruct (agree_create graph_name d2 d2' index2 RIndex eq_refl X2) as [X3 Y3].
    destruct (create d2 _ _) as [d3 r3], (create d2' _ _) as [d3' r3']. cbn [fst snd] in *. subst r3'. now split.
Qed.

Theorem separate mine : separated mine -> forall l (d : database),
  my_answers mine l (run_all l d) = run_all (filter mine l) d.
Proof.
  intros S.
  assert (H : forall l (d d' : database), (forall c, mine c = true -> agree (my_key c) d d') ->
    my_answers mine l (run_all l d) = run_all (filter mine l) d').
  { induction l as [|c l IH]; intros d d' A; cbn [run_all my_answers filter]; [reflexivity|].
    destruct (run c d) as [d1 r] eqn:R1. cbn [my_answers]. destruct (mine c) eqn:M.
    - cbn [run_all]. destruct (run c d') as [d1' r'] eqn:R2.
      destruct (run_agree c d d' (A c M)) as [X Y]. rewrite R1, R2 in X, Y. cbn [fst snd] in *. subst r'. f_equal. apply IH.
      intros c' M' m Hm. destruct (teq_spec (my_key c) (my_key c')) as [Q|Q].
      + apply X. congruence.
      + change d1 with (fst (d1, r)). change d1' with (fst (d1', r)). rewrite <- R1, <- R2.
        rewrite !run_frame by congruence. now apply (A c' M').
    - apply IH. intros c' M' m Hm. change d1 with (fst (d1, r)). rewrite <- R1, run_frame; [now apply (A c' M')|].
      rewrite Hm. intros Q. apply (S c' c M' M). apply fam_related. symmetry. exact Q. }
  intros l d. apply H. intros c _ m _. reflexivity.
Qed.

(** making an object empties its table *)
Theorem creation_empties n (d : database) r : snd (run (NewCollection n) d) = Ok r ->
  forall tag, snd (run (GetItem n tag) (fst (run (NewCollection n) d))) = Err KeyError.
Proof.
  cbn [run]. unfold new_collection. intros H tag. unfold create in *. destruct (drop d (fold_name n) (fold_name n)); [discriminate|].
  cbn [fst]. unfold on_rows. now rewrite upd_same.
Qed.
Theorem tree_creation_empties (d : database) r : snd (run NewTree d) = Ok r ->
  forall tag, snd (run (TContains tag) (fst (run NewTree d))) = Ok (ABool false).
Proof.
  cbn [run]. unfold new_tree. intros H tag. unfold create in *. destruct (drop d graph_name graph_name); [discriminate|].
  rewrite (upd_other _ graph_name index1) in * by discriminate.
  destruct (drop d graph_name index1); [discriminate|]. rewrite (upd_other _ index1 index2) in * by discriminate.
  rewrite (upd_other _ graph_name index2) in * by discriminate. destruct (drop d graph_name index2); [discriminate|].
  cbn [fst]. unfold on_graph. rewrite (upd_other _ index2 graph_name), (upd_other _ index1 graph_name), upd_same by discriminate. reflexivity.
Qed.

(** one collection *)
Lemma collection_calls n : forall l places (d : database) t, d (fold_name n) = Some (RColl t) ->
  run_all (calls_on n l places) d = map (fun r => let* x := r in Ok (answer_of x)) (SpecDb.coll_calls places t l).
Proof.
  induction l as [|c l IH]; intros places d t H; cbn [calls_on run_all SpecDb.coll_calls map]; [reflexivity|].
  assert (R : forall f, on_rows d n f = (upd d (fold_name n) (Some (RColl (fst (f t)))), snd (f t))).
  { intros f. unfold on_rows. rewrite H. now destruct (f t). }
  destruct c; cbn [on_collection run SpecDb.coll_call]; rewrite R; cbn [fst snd].
  - cbn [map bind answer_of]. f_equal. apply IH, upd_same.
  - cbn [map]. f_equal; [now destruct (c_getitem t k)|]. apply IH, upd_same.
  - destruct (c_delitem k t) as [t' r]. cbn [fst snd map]. f_equal; [now destruct r|]. apply IH, upd_same.
  - cbn [map bind answer_of]. f_equal. apply IH, upd_same.
  - cbn [map bind answer_of]. f_equal. apply IH, upd_same.
  - cbn [map bind answer_of]. f_equal. apply IH, upd_same.
Qed.
Theorem collection_answers {O : TeqOk K} mine : separated mine -> forall l (d : database) n calls places,
  filter mine l = NewCollection n :: calls_on n calls places ->
  snd (run (NewCollection n) d) = Ok ANone ->
  exists answers, my_answers mine l (run_all l d) = Ok ANone :: answers /\
    Forall2 like_dict answers (SpecDb.dict_calls [] calls).
Proof.
  intros Sp l d n calls places F C. rewrite (separate mine Sp), F. cbn [run_all].
  assert (X : fst (run (NewCollection n) d) (fold_name n) = Some (RColl [])).
  { cbn [run] in *. unfold new_collection, create in *. destruct (drop d (fold_name n) (fold_name n)); [discriminate|].
    cbn [fst]. apply upd_same. }
  destruct (run (NewCollection n) d) as [d1 r]. cbn [fst snd] in *. subst r.
  eexists. split; [reflexivity|]. rewrite (collection_calls n calls places d1 [] X).
  pose proof (DbVersions.collection_like_dict places calls) as L.
  induction L as [|a b x y H L IH]; cbn [map]; constructor; [now exists a|exact IH].
Qed.
(** the tree *)
Lemma tree_calls : forall l (d : database) t, d graph_name = Some (RGraph t) -> forallb on_tree l = true ->
  run_all l d = tree_answers (db_tree K) l t.
Proof.
  induction l as [|c l IH]; intros d t H F; cbn [run_all tree_answers]; [reflexivity|].
  cbn [forallb] in F. apply andb_prop in F as [Fc F].
  assert (R : forall f, on_graph d f = (upd d graph_name (Some (RGraph (fst (f t)))), snd (f t))).
  { intros f. unfold on_graph. rewrite H. now destruct (f t). }
  destruct c; try discriminate; cbn [run tree_answer]; rewrite R; cbn [fst snd].
  - f_equal. apply IH; [apply upd_same|exact F].
  - f_equal. apply IH; [apply upd_same|exact F].
  - cbn [db_tree tr_add]. destruct (d_add tag base t) as [t' r]. cbn [fst snd]. f_equal. apply IH; [apply upd_same|exact F].
  - f_equal. apply IH; [apply upd_same|exact F].
  - cbn [db_tree tr_change_parent]. destruct (d_change_parent tag parent t) as [t' r]. cbn [fst snd]. f_equal. apply IH; [apply upd_same|exact F].
  - f_equal. apply IH; [apply upd_same|exact F].
Qed.
Theorem tree_answers_alone mine : separated mine -> forall l (d : database) calls,
  filter mine l = NewTree :: calls -> forallb on_tree calls = true ->
  snd (run NewTree d) = Ok ANone ->
  my_answers mine l (run_all l d) = Ok ANone :: tree_answers (db_tree K) calls (tr_empty (db_tree K)).
Proof.
  intros Sp l d calls F T C. rewrite (separate mine Sp), F. cbn [run_all].
  assert (X : fst (run NewTree d) graph_name = Some (RGraph [])).
  { cbn [run] in *. unfold new_tree in *. unfold create in *. destruct (drop d graph_name graph_name); [discriminate|].
    rewrite (upd_other _ graph_name index1) in * by discriminate.
    destruct (drop d graph_name index1); [discriminate|]. rewrite (upd_other _ index1 index2) in * by discriminate.
    rewrite (upd_other _ graph_name index2) in * by discriminate. destruct (drop d graph_name index2); [discriminate|].
    cbn [fst]. now rewrite (upd_other _ index2 graph_name), (upd_other _ index1 graph_name), upd_same by discriminate. }
  destruct (run NewTree d) as [d1 r]. cbn [fst snd] in *. subst r. f_equal. now apply tree_calls.
Qed.

(** what is stored after many calls *)
Lemma untouched l : forall (d : database) n, (forall c, In c l -> ~ related (call_name c) n) ->
  after_all l d (fold_name n) = d (fold_name n).
Proof.
  induction l as [|c l IH]; intros d n H; [reflexivity|]. cbn [after_all].
  rewrite IH by (intros c' I; apply H; now right). apply run_frame.
  intros Q. apply (H c (or_introl eq_refl)). apply fam_related. exact Q.
Qed.
Lemma continued l : forall l' (d : database), run_all (l ++ l') d = run_all l d ++ run_all l' (after_all l d).
Proof.
  induction l as [|c l IH]; intros l' d; [reflexivity|]. cbn [app run_all after_all].
  destruct (run c d) as [d1 r]. cbn [fst]. now rewrite IH.
Qed.
End Database.
