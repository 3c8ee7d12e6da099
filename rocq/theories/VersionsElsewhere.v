(** Whatever happens to the entries of some lines, the others can be used (C134). *)
From Coq Require Import ZArith Lia.
From Verif Require Import Base Changesets Serialize Tokenizers SpecTokenizers Tree SpecTree TreeProofs
  Versions SpecVersions SpecLineage VersionsInv VersionsProofs VersionsMore VersionsFrame VersionsLineage VersionsDamage
  DbTree DbTreeProofs SpecDb DbVersions SpecElsewhere.
Local Open Scope nat_scope.

Section Sim.
Context {K : Type} {E : Teq K} {O : TeqOk K}.
Variable re_w : Z -> bool.
Variable tk : tkind.
Variables HS DS : store K.
Variable TR : tree_impl K.
Variable HL : store_law HS.
Variable DL : store_law DS.
Variable X : K -> Prop.
Notation vst := (@vstate K HS DS TR).
Notation vm := (vm HS DS TR).
Notation vbind := (vbind HS DS TR).
Notation look := (look HS DS TR).
Notation vret := (vret HS DS TR).

Record agree (v w : vst) : Prop := {
  a_tree : tree w = tree v;
  a_fine : (fine HL (heads v) /\ fine DL (diffs v)) /\ fine HL (heads w) /\ fine DL (diffs w);
  a_heads : forall u, ~ X u -> view HL (heads w) u = view HL (heads v) u;
  a_diffs : forall u, ~ X u -> view DL (diffs w) u = view DL (diffs v) u
}.
Definition ends {A} (v w : list vst * (vst * res A)) : Prop := agree (fst (snd v)) (fst (snd w)) /\ snd (snd v) = snd (snd w).
Definition sim {A} (m : vm A) : Prop := forall v w, agree v w -> ends (m v) (m w).

Lemma ends_bind {A B} (m : vm A) (f : A -> vm B) v w : ends (m v) (m w) ->
  (forall a, snd (snd (m v)) = Ok a -> agree (fst (snd (m v))) (fst (snd (m w))) -> ends (f a (fst (snd (m v)))) (f a (fst (snd (m w))))) ->
  ends (vbind m f v) (vbind m f w).
Proof.
  unfold Versions.vbind. destruct (m v) as [t1 [v1 r1]], (m w) as [t2 [w1 r2]]. cbn. intros [A1 R] H. cbn in *. subst r2.
  destruct r1 as [a|e]; [|split; [exact A1|reflexivity]]. specialize (H a eq_refl A1).
  destruct (f a v1) as [? ?], (f a w1) as [? ?]. exact H.
Qed.
Lemma sim_bind {A B} (m : vm A) (f : A -> vm B) : sim m -> (forall a, sim (f a)) -> sim (vbind m f).
Proof. intros Hm Hf v w A1. apply ends_bind; [now apply Hm|]. intros a _ A2. now apply Hf. Qed.
Lemma sim_ret {A} (a : A) : sim (vret a).
Proof. intros v w A1. split; [exact A1|reflexivity]. Qed.
Lemma sim_look {A} (f : vst -> res A) : (forall v w, agree v w -> f w = f v) -> sim (look f).
Proof. intros H v w A1. split; [exact A1|]. cbn. symmetry. now apply H. Qed.
Lemma sim_tree f : sim (on_tree HS DS TR f).
Proof.
  intros v w A1. unfold on_tree. rewrite (a_tree _ _ A1). destruct (f (tree v)) as [t r]. split; [|reflexivity]. cbn.
  split; cbn; [reflexivity|apply A1|apply A1|apply A1].
Qed.
Lemma sim_set_head k b : sim (set_head HS DS TR k b).
Proof.
  intros v w A1. split; [|reflexivity]. cbn. destruct A1 as [A1 [[A2 A3] [A4 A5]] A6 A7]. split; cbn; auto.
  - repeat split; auto; now apply fine_set.
  - intros u Hu. rewrite !view_set. destruct (teq k u); auto.
Qed.
Lemma sim_set_diff k b : sim (set_diff HS DS TR k b).
Proof.
  intros v w A1. split; [|reflexivity]. cbn. destruct A1 as [A1 [[A2 A3] [A4 A5]] A6 A7]. split; cbn; auto.
  - repeat split; auto; now apply fine_set.
  - intros u Hu. rewrite !view_set. destruct (teq k u); auto.
Qed.
Lemma sim_del_head k : ~ X k -> sim (vbind (look (fun v => Ok (s_mem HS (heads v) k))) (fun is_head => if is_head then del_head HS DS TR k else vret tt)).
Proof.
  intros Hk v w A1. pose proof A1 as [B1 [[B2 B3] [B4 B5]] B6 B7].
  unfold Versions.vbind, Versions.look. rewrite !(view_mem _ HL), (B6 k Hk). destruct (view HL (heads v) k) as [c|] eqn:Q; [|split; [exact A1|reflexivity]].
  destruct (view_del _ HL (heads v) k B2 ltac:(congruence)) as (d & D1 & D2 & D3).
  destruct (view_del _ HL (heads w) k B4 ltac:(rewrite (B6 k Hk); congruence)) as (d' & D1' & D2' & D3').
  unfold del_head. rewrite D1, D1'. split; [|reflexivity]. cbn. split; cbn; auto. intros u Hu. rewrite D3, D3'. destruct (teq k u); auto.
Qed.
Lemma sim_edge q c cs : ~ X c -> sim (add_edge HS DS TR q c cs).
Proof.
  intros Hc. unfold add_edge. apply sim_bind; [now apply sim_look|]. intros d. apply sim_bind; [apply sim_set_diff|]. intros [].
  apply sim_bind; [apply sim_tree|]. intros []. now apply sim_del_head.
Qed.
Lemma retrieve_agree v w path : agree v w -> (forall u, In u path -> ~ X u) ->
  retrieve_using_path re_w tk HS DS TR w path = retrieve_using_path re_w tk HS DS TR v path.
Proof.
  intros A1 Hp. destruct path as [|r path]; [reflexivity|]. cbn [retrieve_using_path]. rewrite !(view_get _ HL), (a_heads _ _ A1) by (apply Hp; now left).
  destruct (view HL (heads v) r) as [c|]; [|reflexivity]. cbn [bind]. destruct (encode re_w tk new_tokenizer (CBytes c)) as [st [toks|e]]; [|reflexivity]. cbn [bind].
  apply loop_same. intros u Hu. rewrite !(view_get _ DL), (a_diffs _ _ A1); [reflexivity|]. apply Hp. now right.
Qed.
Lemma get_agree v w t : agree v w -> (forall p, tr_path_to TR (tree v) t = Ok (Some p) -> forall u, In u p -> ~ X u) ->
  get re_w tk HS DS TR w t = get re_w tk HS DS TR v t.
Proof.
  intros A1 Hp. unfold get. rewrite (a_tree _ _ A1). destruct (tr_path_to TR (tree v) t) as [[[|r p]|]|e]; try reflexivity. cbn [bind].
  now rewrite (retrieve_agree v w (r :: p) A1 (Hp _ eq_refl)).
Qed.
Lemma add_agree v w t b base : agree v w -> (forall x, base = Some x -> ~ X x) ->
  (forall x t', base = Some x -> tr_add TR t base (tree v) = (t', Ok tt) ->
     forall sp p, tr_get_split TR t' x = Ok (sp, p) -> ~ X sp /\ forall u, In u p -> ~ X u) ->
  ends (add re_w tk HS DS TR t b base v) (add re_w tk HS DS TR t b base w).
Proof.
  intros A1 Hb Hs. unfold add. apply ends_bind; [now apply sim_set_head|]. intros [] _ A2. apply ends_bind; [now apply sim_tree|].
  intros [] R A3. destruct base as [x|]; [|now apply sim_ret]. specialize (Hb x eq_refl).
  unfold on_tree in *. cbn [set_head fst snd tree] in *. destruct (tr_add TR t (Some x) (tree v)) as [t' r'] eqn:Ta. cbn [fst snd tree] in *. subst r'.
  specialize (Hs x t' eq_refl eq_refl). apply ends_bind; [apply sim_look; [|exact A3]; intros v1 w1 A4; now rewrite (a_tree _ _ A4)|].
  intros [sp p] Q A4. cbn [look snd fst tree] in Q. destruct (Hs sp p Q) as [Hsp Hp]. cbn [fst snd].
  refine (sim_bind _ _ _ _ _ _ A4).
  - destruct (teq sp x); [apply sim_ret|]. apply sim_bind; [apply sim_look; intros v1 w1 A5; now apply retrieve_agree|]. intros sv.
    apply sim_bind; [now apply sim_look|]. intros cs. apply sim_bind; [now apply sim_edge|]. intros []. apply sim_tree.
  - intros []. apply sim_bind; [apply sim_look; intros v1 w1 A5; now rewrite !(view_get _ HL), (a_heads _ _ A5)|]. intros hv.
    apply sim_bind; [now apply sim_look|]. intros cs. now apply sim_edge.
Qed.
End Sim.

Lemma last_in {A} (l : list A) d : l <> [] -> In (last l d) l.
Proof. induction l as [|x [|y l] IH]; intros H; [contradiction|now left|]. right. now apply IH. Qed.

Section Hist.
Context {K : Type} {E : Teq K} {O : TeqOk K}.
Variable re_w : Z -> bool.
Variable tk : tkind.
Variables HS DS : store K.
Variable TR : tree_impl K.
Variable HL : store_law HS.
Variable DL : store_law DS.
Variable TL : tree_law TR.
Variable X : K -> Prop.
Notation run := (run re_w tk HS DS TR).
Notation hist_inv := (hist_inv re_w tk HS DS TR HL DL TL).
Notation agree := (agree HS DS TR HL DL X).
Implicit Type h : list (adding K).

Lemma lines_later h : whole_lines h X -> forall x y, later h x y -> (X x <-> X y).
Proof. intros W x y L. induction L as [x y B|x y z B L IH]; [now apply W|]. rewrite (W _ _ B). exact IH. Qed.
Lemma down_lines s t p : (forall c q, child_of s c q -> (X c <-> X q)) -> down s t p -> forall u, In u p -> (X u <-> X t).
Proof.
  intros W D. induction D as [t Hn|t c p C D IH]; intros u Hu.
  - destruct Hu as [<-|[]]. reflexivity.
  - destruct Hu as [<-|Hu]; [reflexivity|]. rewrite (IH u Hu). now apply W.
Qed.
Lemma up_lines s t l : (forall c q, child_of s c q -> (X c <-> X q)) -> up s t l -> forall u, In u l -> (X u <-> X t).
Proof.
  intros W U. induction U as [t n Hn Hp|t n q l Hn Hp U IH]; intros u Hu.
  - destruct Hu as [<-|[]]. reflexivity.
  - destruct Hu as [<-|Hu]; [reflexivity|]. rewrite (IH u Hu). symmetry. apply W. exists n. auto.
Qed.
Lemma lines_snoc h a : whole_lines h X -> away X a -> whole_lines (h ++ [a]) X.
Proof.
  intros W [A1 A2] x y (pre & b & post & Q & Hx). destruct post as [|z post _] using rev_ind.
  - apply app_inj_tail in Q as [<- ->]. cbn in A1. specialize (A2 x eq_refl). tauto.
  - rewrite app_comm_cons, app_assoc in Q. apply app_inj_tail in Q as [-> _]. apply W. exists pre, b, post. auto.
Qed.
Lemma child_lines h s : whole_lines h X -> (forall c q, child_of s c q -> later h c q) -> forall c q, child_of s c q -> (X c <-> X q).
Proof. intros W L c q C. now apply (lines_later h W), L. Qed.

Lemma step h v w a : tk <> KLine -> fresh tk (h ++ [a]) -> whole_lines h X -> away X a -> v = run v_empty h -> agree v w ->
  agree (add_state re_w tk HS DS TR v a) (add_state re_w tk HS DS TR w a) /\
  add_result re_w tk HS DS TR w a = add_result re_w tk HS DS TR v a.
Proof.
  intros Hk F W Aw Hv A1. destruct (fresh_snoc _ _ _ F) as (F0 & Na & Nb & _).
  destruct (lineage_inv re_w tk HS DS TR HL DL TL h Hk F0) as (s & I & L). rewrite <- Hv in I.
  pose proof (child_lines h s W L) as Ch. pose proof (c_rep _ _ _ _ _ _ _ _ _ _ _ _ (h_core _ _ _ _ _ _ _ _ _ _ _ I)) as R.
  destruct a as [[t b] base]. unfold add_state, add_result. cbn [tag_of bytes_of base_of fst snd] in *.
  pose proof (proj2 (known_added re_w tk HS DS TR HL DL TL h v s t I) Na) as Ds.
  destruct (add_agree re_w tk HS DS TR HL DL X v w t b base A1 (proj2 Aw)) as [A2 R2]; [|split; [exact A2|now symmetry]].
  intros x t' -> Ta sp p Q. destruct (rep_add _ TL _ s t (Some x) R Ds) as (t2 & T1 & T2). rewrite T1 in Ta. injection Ta as ->.
  set (s2 := fst (m_add t (Some x) s)) in *.
  assert (Ch2 : forall c q, child_of s2 c q -> (X c <-> X q)).
  { intros c q (n & Hn & Hp). apply Ch. exists n. split; [|exact Hp]. unfold s2, m_add in Hn. cbn in Hn. rewrite dget_dset in Hn.
    destruct (teq_spec t c) as [->|]; [injection Hn as <-; discriminate|exact Hn]. }
  destruct (dget s2 x) as [n|] eqn:Hn.
  - destruct (rep_split _ TL _ _ x n T2 Hn) as (p' & S1 & S2 & _). rewrite S1 in Q. injection Q as <- <-.
    assert (P : forall u, In u p' -> ~ X u) by (intros u Hu; rewrite (down_lines s2 x p' Ch2 S2 u Hu); now apply (proj2 Aw)).
    split; [|exact P]. apply P. destruct (down_cons _ _ _ S2) as [r ->]. now apply last_in.
  - destruct (rep_nosplit _ TL _ _ x T2 Hn) as [e Q']. congruence.
Qed.
Lemma steps g : forall h v w, tk <> KLine -> fresh tk (h ++ g) -> whole_lines h X -> Forall (away X) g -> v = run v_empty h -> agree v w ->
  agree (run v g) (run w g) /\ whole_lines (h ++ g) X.
Proof.
  induction g as [|a g IH]; intros h v w Hk F W Aw Hv A1; [rewrite app_nil_r; auto|]. inversion Aw as [|? ? Aa Ag]; subst.
  change (a :: g) with ([a] ++ g) in *. rewrite app_assoc in *.
  assert (Fa : fresh tk (h ++ [a])).
  { destruct F as [N F]. rewrite map_app in N. split; [now apply NoDup_front in N|]. now apply Forall_app in F as [F _]. }
  destruct (step h _ w a Hk Fa W Aa eq_refl A1) as [A2 _].
  apply (IH (h ++ [a]) _ _ Hk F (lines_snoc h a W Aa) Ag); [now rewrite run_snoc|exact A2].
Qed.
Theorem elsewhere h g hs ds : tk <> KLine -> fresh tk (h ++ g) -> whole_lines h X -> Forall (away X) g ->
  fine HL hs -> fine DL ds ->
  let v := run v_empty h in
  (forall u, ~ X u -> view HL hs u = view HL (heads v) u) -> (forall u, ~ X u -> view DL ds u = view DL (diffs v) u) ->
  let w := run (mkV hs ds (tree v)) g in let v' := run v_empty (h ++ g) in
  (forall t b base, In (t, b, base) (h ++ g) -> ~ X t -> get re_w tk HS DS TR w t = Ok (Some b)) /\
  (forall t, ~ X t -> get re_w tk HS DS TR w t = get re_w tk HS DS TR v' t /\
     view HL (heads w) t = view HL (heads v') t /\ view DL (diffs w) t = view DL (diffs v') t) /\
  tree w = tree v' /\
  (forall a, fresh tk (h ++ g ++ [a]) -> away X a -> add_result re_w tk HS DS TR w a = add_result re_w tk HS DS TR v' a).
Proof.
  intros Hk F W Aw Fh Fd v Eh Ed w v'.
  assert (Fr : fresh tk h).
  { destruct F as [N F]. rewrite map_app in N. split; [now apply NoDup_front in N|]. now apply Forall_app in F as [F _]. }
  destruct (hist_ok re_w tk HS DS TR HL DL TL h Hk Fr) as [s0 I0]. fold v in I0.
  assert (A0 : agree v (mkV hs ds (tree v))).
  { split; cbn; auto. split; [|auto]. apply (c_fine _ _ _ _ _ _ _ _ _ _ _ _ (h_core _ _ _ _ _ _ _ _ _ _ _ I0)). }
  destruct (steps g h v _ Hk F W Aw eq_refl A0) as [A1 W1]. fold w in A1.
  assert (Qv : run v g = v') by (unfold v, v', Versions.run; now rewrite fold_left_app). rewrite Qv in A1.
  destruct (lineage_inv re_w tk HS DS TR HL DL TL (h ++ g) Hk F) as (s & I & L). fold v' in I.
  pose proof (child_lines (h ++ g) s W1 L) as Ch. pose proof (c_rep _ _ _ _ _ _ _ _ _ _ _ _ (h_core _ _ _ _ _ _ _ _ _ _ _ I)) as R.
  assert (G : forall t, ~ X t -> get re_w tk HS DS TR w t = get re_w tk HS DS TR v' t).
  { intros t Ht. apply (get_agree re_w tk HS DS TR HL DL X v' w t A1). intros p Hp u Hu.
    destruct (dget s t) as [n|] eqn:Dt.
    - assert (At : added (h ++ g) t).
      { apply dget_Some_key in Dt. now rewrite (h_keys _ _ _ _ _ _ _ _ _ _ _ I) in Dt. }
      destruct (inv_up re_w tk HS DS TR HL DL TL _ v' s t I At) as [l U]. rewrite (rep_path _ TL _ s t l R U) in Hp. injection Hp as <-.
      apply in_rev in Hu. rewrite (up_lines s t l Ch U u Hu). exact Ht.
    - destruct (rep_nopath _ TL _ s t R Dt) as [Q|Q]; rewrite Q in Hp; [discriminate|]. injection Hp as <-. destruct Hu. }
  split; [|split; [|split]].
  - intros t b base Hin Ht. rewrite (G t Ht). apply (proj1 (retrieval re_w tk HS DS TR HL DL TL (h ++ g) Hk F)) with (1 := Hin).
  - intros t Ht. split; [now apply G|]. split; [now apply A1|now apply A1].
  - apply A1.
  - intros a Fa Aa. rewrite app_assoc in Fa. now apply (step (h ++ g) v' w a Hk Fa W1 Aa eq_refl A1).
Qed.
End Hist.
