(** With DBCollections and a DBTree only the texts of the tags matter (C72). *)
From Coq Require Import Lia.
From Verif Require Import Base Changesets Serialize Tokenizers SpecTokenizers Tree SpecTree TreeProofs TreeExact
  Versions SpecVersions VersionsInv VersionsProofs DbTree DbTreeProofs SpecDb DbVersions Json Manifest JsonProofs TextTags.
Local Open Scope nat_scope.

Section Sim.
Variable re_w : Z -> bool.
Variable tk : tkind.
Variables place1 place2 : rows (K := list Z) (V := list Z) -> nat.
Notation TS1 := (text_store place1).
Notation TS2 := (text_store place2).
Notation DS1 := (db_store (list Z) place1).
Notation DS2 := (db_store (list Z) place2).
Notation TT := text_tree.
Notation DT := (db_tree (list Z)).
Notation tstate := (vstate TS1 TS2 TT).
Notation dstate := (vstate DS1 DS2 DT).

Definition conv (v : tstate) : dstate := @mkV (list Z) DS1 DS2 DT (heads v) (diffs v) (tree v).
Definition conv_res {A} (r : list tstate * (tstate * res A)) : list dstate * (dstate * res A) :=
  (map conv (fst r), (conv (fst (snd r)), snd (snd r))).
Definition sim {A} (v : tstate) (m1 : vm TS1 TS2 TT A) (m2 : vm DS1 DS2 DT A) : Prop := conv_res (m1 v) = m2 (conv v).

Lemma sim_bind {A B} v (m1 : vm TS1 TS2 TT A) m2 (f1 : A -> vm TS1 TS2 TT B) f2 : sim v m1 m2 ->
  (forall tr v1 a, m1 v = (tr, (v1, Ok a)) -> sim v1 (f1 a) (f2 a)) -> sim v (vbind TS1 TS2 TT m1 f1) (vbind DS1 DS2 DT m2 f2).
Proof.
  unfold sim, vbind. intros H1 H2. rewrite <- H1. destruct (m1 v) as [tr [v1 [a|e]]] eqn:Em; cbn.
  - specialize (H2 tr v1 a eq_refl). rewrite <- H2. destruct (f1 a v1) as [tr2 [v2 r]]. unfold conv_res; cbn. now rewrite map_app.
  - reflexivity.
Qed.
Lemma sim_ret {A} v (a : A) : sim v (vret TS1 TS2 TT a) (vret DS1 DS2 DT a).
Proof. reflexivity. Qed.
Lemma sim_look {A} v f1 f2 : f1 v = f2 (conv v) -> sim (A := A) v (look TS1 TS2 TT f1) (look DS1 DS2 DT f2).
Proof. unfold sim, look, conv_res; cbn. now intros ->. Qed.
Lemma sim_look2 {A1 A2 B} v (f1 : tstate -> res A1) (f2 : dstate -> res A2) (g1 : A1 -> vm TS1 TS2 TT B) g2 :
  match f1 v, f2 (conv v) with Ok a, Ok b => sim v (g1 a) (g2 b) | Err e, Err e' => e = e' | _, _ => False end ->
  sim v (vbind TS1 TS2 TT (look TS1 TS2 TT f1) g1) (vbind DS1 DS2 DT (look DS1 DS2 DT f2) g2).
Proof.
  unfold sim, vbind, look. destruct (f1 v) as [a|e], (f2 (conv v)) as [b|e']; try tauto; [|now intros ->].
  intros H. rewrite <- H. destruct (g1 a v) as [tr r]. reflexivity.
Qed.
Lemma sim_on_tree v f1 (f2 : tree_t DT -> tree_t DT * res unit) : f1 = f2 -> sim v (on_tree TS1 TS2 TT f1) (on_tree DS1 DS2 DT f2).
Proof. intros ->. unfold sim, on_tree, conv_res. cbn. destruct (f2 (tree v)) as [t r]. reflexivity. Qed.
Lemma sim_set_head v k b : sim v (set_head TS1 TS2 TT k b) (set_head DS1 DS2 DT (column_text k) b).
Proof. reflexivity. Qed.
Lemma sim_set_diff v k b : sim v (set_diff TS1 TS2 TT k b) (set_diff DS1 DS2 DT (column_text k) b).
Proof. reflexivity. Qed.
Lemma sim_del_head v k : sim v (del_head TS1 TS2 TT k) (del_head DS1 DS2 DT (column_text k)).
Proof. unfold sim, del_head, conv_res; cbn. destruct (c_delitem (column_text k) (heads v)) as [h r]. reflexivity. Qed.

Lemma sim_add_edge v q c cs : sim v (add_edge TS1 TS2 TT q c cs) (add_edge DS1 DS2 DT (column_text q) (column_text c) cs).
Proof.
  unfold add_edge. apply sim_bind; [now apply sim_look|]. intros _ v1 d _.
  apply sim_bind; [apply sim_set_diff|]. intros _ v2 [] _.
  apply sim_bind; [now apply sim_on_tree|]. intros _ v3 [] _.
  apply sim_bind; [now apply sim_look|]. intros _ v4 [|] _; [apply sim_del_head|apply sim_ret].
Qed.

Lemma retrieve_loop_text v : forall path st toks,
  retrieve_loop re_w tk TS1 TS2 TT v st toks path = retrieve_loop re_w tk DS1 DS2 DT (conv v) st toks (map column_text path).
Proof.
  induction path as [|k path IH]; intros st toks; [reflexivity|]. cbn [retrieve_loop map].
  change (s_get TS2 (diffs v) k) with (s_get DS2 (diffs (conv v)) (column_text k)).
  destruct (s_get DS2 (diffs (conv v)) (column_text k)) as [d|]; cbn [bind]; [|reflexivity].
  destruct (deserialize_changeset d) as [items stop]. destruct (encode_items re_w tk st items) as [st' [p|]]; cbn [bind]; [|reflexivity].
  destruct stop; [reflexivity|apply IH].
Qed.
Lemma retrieve_text v path :
  retrieve_using_path re_w tk TS1 TS2 TT v path = retrieve_using_path re_w tk DS1 DS2 DT (conv v) (map column_text path).
Proof.
  destruct path as [|k path]; [reflexivity|]. cbn [retrieve_using_path map].
  change (s_get TS1 (heads v) k) with (s_get DS1 (heads (conv v)) (column_text k)).
  destruct (s_get DS1 (heads (conv v)) (column_text k)) as [b|]; cbn [bind]; [|reflexivity].
  destruct (encode re_w tk new_tokenizer (CBytes b)) as [st [toks|]]; cbn [bind]; [|reflexivity]. apply retrieve_loop_text.
Qed.
Lemma map_text_TStr l : map column_text (map TStr l) = l.
Proof. rewrite map_map; cbn. apply map_id. Qed.
Lemma get_text_tags v k : get re_w tk TS1 TS2 TT v k = get re_w tk DS1 DS2 DT (conv v) (column_text k).
Proof.
  unfold get. cbn [tr_path_to text_tree db_tree]. change (tree (conv v)) with (tree v).
  destruct (d_path_to (tree v) (column_text k)) as [[p|]|]; cbn [bind option_map]; try reflexivity.
  destruct p as [|x p]; [reflexivity|]. cbn [map].
  rewrite (retrieve_text v (TStr x :: map TStr p)). cbn [map column_text]. now rewrite map_text_TStr.
Qed.

(** the split of a known node is that node, or a different one further down *)
Lemma split_proper h v s : hist_inv re_w tk DS1 DS2 DT (db_store_law place1) (db_store_law place2) db_law h v s ->
  forall k base t' x y p, dget s k = None -> d_add k base (tree v) = (t', Ok tt) -> d_get_split t' x = Ok (y, p) ->
  (y = x /\ p = [x]) \/ (exists c q, p = x :: c :: q /\ y = last p x /\ y <> x).
Proof.
  intros I k base t' x y p Hk Ha Hs.
  assert (R : rep db_law (tree v) s) by apply I.
  destruct (rep_add _ db_law _ _ k base R Hk) as [t2 [Ha2 R2]]. cbn in Ha2. rewrite Ha in Ha2. injection Ha2 as <-.
  set (s2 := fst (m_add k base s)) in *.
  destruct (dget s2 x) as [n|] eqn:Hx.
  - destruct (rep_way _ db_law _ _ x n R2 Hx) as [p' [Hp W]]. cbn in Hp. rewrite Hs in Hp. injection Hp as -> ->.
    pose proof (split_way_down _ _ _ _ W) as Dn. destruct (down_cons _ _ _ Dn) as [q ->].
    destruct q as [|c q]; [left; auto|right]. exists c, q. split; [reflexivity|]. split; [reflexivity|].
    intros Hl. destruct (rep_shape _ db_law _ _ R2) as [_ [F _]].
    destruct (F x) as [l Hl']; [congruence|].
    destruct (down_up_chain _ _ _ Dn l Hl') as [l' [A [B _]]]. rewrite Hl in A.
    pose proof (up_fun _ _ _ A _ Hl') as Ea. apply (f_equal (@length _)) in Ea. rewrite app_length in Ea. cbn in B. lia.
  - destruct (rep_nosplit _ db_law _ _ x R2 Hx) as [e He]. cbn in He. congruence.
Qed.

Lemma sim_add h v s k b base :
  hist_inv re_w tk DS1 DS2 DT (db_store_law place1) (db_store_law place2) db_law h (conv v) s ->
  dget s (column_text k) = None ->
  sim v (add re_w tk TS1 TS2 TT k b base) (add re_w tk DS1 DS2 DT (column_text k) b (option_map column_text base)).
Proof.
  intros I Hk. unfold add. apply sim_bind; [apply sim_set_head|]. intros tr v1 [] E1.
  apply sim_bind; [now apply sim_on_tree|]. intros tr2 v2 [] E2.
  destruct base as [x|]; [|apply sim_ret]. cbn [option_map].
  assert (Ea : d_add (column_text k) (Some (column_text x)) (tree (conv v)) = (tree v2, Ok tt)).
  { injection E1 as <- <-. unfold on_tree in E2. cbn in E2. change (tree (conv v)) with (tree v).
    destruct (d_add (column_text k) (Some (column_text x)) (tree v)) as [t r]. injection E2 as <- <- <-. reflexivity. }
  apply sim_look2. cbn [tr_get_split text_tree db_tree]. change (tree (conv v2)) with (tree v2).
  destruct (d_get_split (tree v2) (column_text x)) as [[y p]|e] eqn:Es; cbn [bind]; [|reflexivity].
  cbn [snd]. destruct (split_proper h (conv v) s I _ _ _ _ _ _ Hk Ea Es) as [[-> ->]|[c [q [-> [Hy Hne]]]]].
  - cbn [tl map last fst snd]. rewrite !teq_refl.
    apply sim_bind; [apply sim_ret|]. intros _ v3 [] _. apply sim_bind; [now apply sim_look|]. intros _ v4 hv _.
    apply sim_bind; [now apply sim_look|]. intros _ v5 cs _. apply sim_add_edge.
  - set (pp := x :: map TStr (tl (column_text x :: c :: q))). cbn [fst snd].
    assert (Hl : last pp x = TStr y).
    { unfold pp. cbn [tl map]. change (TStr c :: map TStr q) with (map TStr (c :: q)).
      rewrite Hy. clear. change (last (x :: map TStr (c :: q)) x = TStr (last (c :: q) (column_text x))).
      change (last (map TStr (c :: q)) x = TStr (last (c :: q) (column_text x))).
      revert c; induction q as [|d q IH]; intros c; [reflexivity|]. exact (IH d). }
    assert (Hm : map column_text pp = column_text x :: c :: q) by (unfold pp; cbn [map tl]; now rewrite map_text_TStr).
    rewrite Hl. assert (teq (TStr y) x = false) as ->.
    { destruct (teq (TStr y) x) eqn:Et; [|reflexivity]. destruct x as [w|n]; [|discriminate].
      cbn in Et. change (teq y w = true) in Et. destruct (teq_spec y w) as [->|]; [|discriminate]. now destruct Hne. }
    rewrite (proj2 (teq_false y (column_text x)) Hne).
    apply sim_bind.
    + apply sim_bind; [apply sim_look; rewrite retrieve_text, Hm; reflexivity|]. intros _ v3 sv _.
      apply sim_bind; [now apply sim_look|]. intros _ v4 cs _.
      apply sim_bind; [exact (sim_add_edge v4 k (TStr y) cs)|]. intros _ v5 [] _. now apply sim_on_tree.
    + intros _ v3 [] _. apply sim_bind; [now apply sim_look|]. intros _ v4 hv _.
      apply sim_bind; [now apply sim_look|]. intros _ v5 cs _. apply sim_add_edge.
Qed.

Theorem run_text h : tk <> KLine -> fresh tk (map in_text h) ->
  conv (run re_w tk TS1 TS2 TT v_empty h) = run re_w tk DS1 DS2 DT v_empty (map in_text h).
Proof.
  intros Hk. induction h as [|a h IH] using rev_ind; intros F; [reflexivity|].
  rewrite map_app in *. cbn [map] in *. destruct (fresh_snoc _ _ _ F) as [F1 F2]. specialize (IH F1).
  unfold run in *. rewrite !fold_left_app. cbn [fold_left].
  destruct (hist_ok re_w tk DS1 DS2 DT (db_store_law place1) (db_store_law place2) db_law (map in_text h) Hk F1) as [s I].
  unfold run in I. rewrite <- IH in I. destruct a as [[k b] base]. cbn [in_text] in *.
  assert (Hs : dget s (column_text k) = None).
  { apply (known_added re_w tk DS1 DS2 DT (db_store_law place1) (db_store_law place2) db_law _ _ _ _ I). tauto. }
  pose proof (sim_add _ _ _ k b base I Hs) as Z0. unfold sim in Z0.
  unfold add_state at 1 3. rewrite <- IH. rewrite <- Z0. reflexivity.
Qed.

Theorem text_tags_ok h : tk <> KLine -> fresh tk (map in_text h) ->
  let v := run re_w tk TS1 TS2 TT v_empty h in
  (forall t b base, In (t, b, base) h -> get re_w tk TS1 TS2 TT v t = Ok (Some b)) /\
  (forall t, ~ In (column_text t) (map (fun a => column_text (tag_of a)) h) -> get re_w tk TS1 TS2 TT v t = Ok None) /\
  (forall t b base, In (t, b, base) h -> tr_base TT (tree v) t = Ok (option_map (fun k => TStr (column_text k)) base)).
Proof.
  intros Hk F v. assert (R := run_text h Hk F). fold v in R.
  destruct (retrieval re_w tk DS1 DS2 DT (db_store_law place1) (db_store_law place2) db_law (map in_text h) Hk F) as [G1 G2].
  split; [|split].
  - intros t b base Hin. rewrite get_text_tags, R. apply (G1 (column_text t) b (option_map column_text base)).
    change (column_text t, b, option_map column_text base) with (in_text (t, b, base)). now apply in_map.
  - intros t Hn. rewrite get_text_tags, R. apply G2. intros C; apply Hn. unfold added in C. rewrite map_map in C.
    erewrite map_ext; [exact C|]. intros [[? ?] ?]; reflexivity.
  - intros t b base Hin.
    pose proof (base_reported re_w tk DS1 DS2 DT (db_store_law place1) (db_store_law place2) db_law (map in_text h) Hk F) as [_ B].
    change (tree v) with (tree (conv v)). rewrite R. cbn [tr_base text_tree].
    specialize (B (column_text t) b (option_map column_text base)). cbn [tr_base db_tree] in B.
    rewrite B by (change (column_text t, b, option_map column_text base) with (in_text (t, b, base)); now apply in_map).
    cbn. destruct base; reflexivity.
Qed.
End Sim.
