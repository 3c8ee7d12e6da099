(** How many nodes of the tree the adds of a history visit (C130). *)
From Coq Require Import ZArith Lia.
From Verif Require Import Base Changesets Serialize Tokenizers SpecTokenizers Tree SpecTree TreeProofs TreeExact
  Versions SpecVersions VersionsInv VersionsProofs VersionsSqrt VersionsShape DbTree DbTreeProofs SpecDb DbVersions VersionsWrites
  SpecLine SpecWays VersionsWays WaysSplit TreeCost TreeCostProofs.
Local Open Scope nat_scope.

Section Law.
Context {K : Type} {E : Teq K} {O : TeqOk K}.
Variable TR : tree_impl K.
Variable TL : tree_law TR.
Context {TX : Exact TL}.
Variable change : K -> K -> tree_t TR -> nat * (tree_t TR * res unit).
Hypothesis change_same : forall k r t, snd (change k r t) = tr_change_parent TR k r t.
Notation CT := (counted TR change).

Definition counted_law : tree_law CT.
Proof.
  refine (@Build_tree_law K E CT (fun t s => rep TL (snd t) s) (rep_free TL) (rep_ranks TL) _ _ _ _ _ _ _ _ _ _);
    cbn [counted tree_t tr_empty tr_contains tr_base tr_add tr_path_to tr_change_parent tr_get_split snd fst].
  - intros t s; apply (rep_shape _ TL).
  - apply (rep_empty _ TL).
  - intros t s k; apply (rep_contains _ TL).
  - intros t s k n; apply (rep_base _ TL).
  - intros t s k l; apply (rep_path _ TL).
  - intros t s k; apply (rep_nopath _ TL).
  - intros t s k b R H. destruct (rep_add _ TL _ s k b R H) as [t' [Ha Hr]]. exists (fst t, t'). rewrite Ha. auto.
  - intros t s k r n0 nr lr R H0 Hr Hu Hn Hf. destruct (rep_move _ TL _ s k r n0 nr lr R H0 Hr Hu Hn Hf) as [t' [s' [Hc [R' P]]]].
    pose proof (change_same k r (snd t)) as Q. rewrite Hc in Q. destruct (change k r (snd t)) as [n o]. cbn [snd] in Q. subst o.
    exists (fst t + n, t'), s'. auto.
  - intros t s k n; apply (rep_split _ TL).
  - intros t s k; apply (rep_nosplit _ TL).
Defined.
#[local] Instance counted_exact : Exact counted_law.
Proof. split; [intros t s R; exact (@exact_metrics _ _ _ TL TX _ s R)|exact (@exact_ranks _ _ _ TL TX)]. Qed.

(** * Forgetting the counter *)
Variable re_w : Z -> bool.
Variable tk : tkind.
Variables HS DS : store K.
Definition forget (v : vstate HS DS CT) : vstate HS DS TR := mkV (heads v) (diffs v) (snd (tree v)).
Definition alike_vm {A} (c : vm HS DS CT A) (d : vm HS DS TR A) : Prop := forall v,
  fst (snd (d (forget v))) = forget (fst (snd (c v))) /\ snd (snd (d (forget v))) = snd (snd (c v)).
Lemma alike_bind {A B} (c : vm HS DS CT A) d (f : A -> vm HS DS CT B) g : alike_vm c d -> (forall a, alike_vm (f a) (g a)) ->
  alike_vm (vbind HS DS CT c f) (vbind HS DS TR d g).
Proof.
  intros H1 H2 v. unfold vbind. specialize (H1 v). destruct (c v) as [t1 [v1 [a|e]]], (d (forget v)) as [t2 [v2 r2]]; cbn [fst snd] in *;
    destruct H1 as [-> ->]; [|split; reflexivity].
  specialize (H2 a v1). destruct (f a v1) as [t3 r3], (g a (forget v1)) as [t4 r4]; cbn [fst snd] in *. exact H2.
Qed.
Lemma alike_ret {A} (a : A) : alike_vm (vret HS DS CT a) (vret HS DS TR a).
Proof. intros v; split; reflexivity. Qed.
Lemma alike_look {A} f (g : vstate HS DS TR -> res A) : (forall v, g (forget v) = f v) -> alike_vm (look HS DS CT f) (look HS DS TR g).
Proof. intros H v; split; [reflexivity|]. cbn. apply H. Qed.
Lemma alike_add tag b : alike_vm (on_tree HS DS CT (tr_add CT tag b)) (on_tree HS DS TR (tr_add TR tag b)).
Proof. intros v. unfold on_tree. cbn [counted tr_add forget tree heads diffs]. destruct (tr_add TR tag b (snd (tree v))); split; reflexivity. Qed.
Lemma alike_change k r : alike_vm (on_tree HS DS CT (tr_change_parent CT k r)) (on_tree HS DS TR (tr_change_parent TR k r)).
Proof.
  intros v. unfold on_tree. cbn [counted tr_change_parent forget tree heads diffs]. rewrite <- change_same.
  destruct (change k r (snd (tree v))) as [n [t o]]; split; reflexivity.
Qed.
Lemma alike_edge p c cs : alike_vm (add_edge HS DS CT p c cs) (add_edge HS DS TR p c cs).
Proof.
  unfold add_edge. apply alike_bind; [apply alike_look; reflexivity|intros d].
  apply alike_bind; [intros v; split; reflexivity|intros _]. apply alike_bind; [apply alike_change|intros _].
  apply alike_bind; [apply alike_look; reflexivity|intros []]; [|apply alike_ret].
  intros v. unfold del_head. cbn [forget heads diffs tree]. destruct (s_del HS c (heads v)); split; reflexivity.
Qed.
Lemma retrieve_forget v p : retrieve_using_path re_w tk HS DS TR (forget v) p = retrieve_using_path re_w tk HS DS CT v p.
Proof.
  unfold retrieve_using_path. destruct p as [|r p]; [reflexivity|]. cbn [forget heads].
  destruct (s_get HS (heads v) r) as [c|e]; [|reflexivity]. cbn [bind].
  destruct (encode re_w tk new_tokenizer (CBytes c)) as [st [toks|e]]; [|reflexivity]. cbn [bind].
  revert st toks; induction p as [|t p IH]; intros st toks; [reflexivity|]. cbn [retrieve_loop forget diffs].
  destruct (s_get DS (diffs v) t) as [d|e]; [|reflexivity]. cbn [bind].
  destruct (deserialize_changeset d) as [items stop]. destruct (encode_items re_w tk st items) as [st' [patch|e]]; [|reflexivity].
  cbn [bind]. destruct stop; [reflexivity|]. apply IH.
Qed.
Lemma alike_add_version tag b base : alike_vm (add re_w tk HS DS CT tag b base) (add re_w tk HS DS TR tag b base).
Proof.
  unfold add. apply alike_bind; [intros v; split; reflexivity|intros _]. apply alike_bind; [apply alike_add|intros _].
  destruct base as [h|]; [|apply alike_ret].
  apply alike_bind; [apply alike_look; reflexivity|intros [sp p]]. cbn [fst snd]. apply alike_bind.
  - destruct (teq sp h); [apply alike_ret|].
    apply alike_bind; [apply alike_look; intros v; apply retrieve_forget|intros sv].
    apply alike_bind; [apply alike_look; reflexivity|intros cs]. apply alike_bind; [apply alike_edge|intros _]. apply alike_change.
  - intros _. apply alike_bind; [apply alike_look; reflexivity|intros hv].
    apply alike_bind; [apply alike_look; reflexivity|intros cs]. apply alike_edge.
Qed.
Theorem run_forget h : forall v, forget (run re_w tk HS DS CT v h) = run re_w tk HS DS TR (forget v) h.
Proof.
  induction h as [|[[tag b] base] h IH]; intros v; [reflexivity|]. cbn [run fold_left]. fold (run re_w tk HS DS CT).
  change (forget (run re_w tk HS DS CT (add_state re_w tk HS DS CT v (tag, b, base)) h) =
    run re_w tk HS DS TR (add_state re_w tk HS DS TR (forget v) (tag, b, base)) h).
  rewrite IH. f_equal. cbn [add_state]. symmetry. exact (proj1 (alike_add_version tag b base v)).
Qed.

(** * The steps of an add *)
Section AnyTree.
Variable T0 : tree_impl K.
Lemma add_tree tag b h (v : vstate HS DS T0) tr v' : add re_w tk HS DS T0 tag b (Some h) v = (tr, (v', Ok tt)) ->
  exists t1 sp p t2, tr_add T0 tag (Some h) (tree v) = (t1, Ok tt) /\ tr_get_split T0 t1 h = Ok (sp, p) /\
    (if teq sp h then t2 = t1 else exists ta, tr_change_parent T0 sp tag t1 = (ta, Ok tt) /\ tr_change_parent T0 sp tag ta = (t2, Ok tt)) /\
    tr_change_parent T0 h tag t2 = (tree v', Ok tt).
Proof.
  assert (Edge : forall p c cs w tr w', add_edge HS DS T0 p c cs w = (tr, (w', Ok tt)) ->
            tr_change_parent T0 c p (tree w) = (tree w', Ok tt)).
  { intros p c cs w tr0 w'. unfold add_edge. unfold vbind at 1. cbn [look]. destruct (serialize_changeset cs) as [d|e]; [|discriminate].
    unfold vbind at 1. cbn [set_diff]. unfold vbind at 1. unfold on_tree. cbn [tree heads diffs].
    destruct (tr_change_parent T0 c p (tree w)) as [t [[]|e]]; [|discriminate].
    unfold vbind at 1. cbn [look heads]. destruct (s_mem HS (heads w) c); cbn [vret].
    - unfold del_head. cbn [heads diffs tree]. destruct (s_del HS c (heads w)) as [h' r]. intros [= _ <- ->]. reflexivity.
    - intros [= _ <-]. reflexivity. }
  unfold add. unfold vbind at 1. cbn [set_head]. unfold vbind at 1. unfold on_tree at 1. cbn [tree heads diffs].
  destruct (tr_add T0 tag (Some h) (tree v)) as [t1 [[]|e]]; [|discriminate].
  unfold vbind at 1. cbn [look tree]. destruct (tr_get_split T0 t1 h) as [[sp p]|e] eqn:Hs; [|discriminate]. cbn [fst snd].
  set (v2 := mkV _ _ _). intros H. exists t1, sp, p.
  match type of H with context [vbind HS DS T0 ?c1 ?f v2] => set (c := c1) in H; set (g := f) in H end.
  assert (Tail : forall w tr w', g tt w = (tr, (w', Ok tt)) -> tr_change_parent T0 h tag (tree w) = (tree w', Ok tt)).
  { intros w tr0 w'. unfold g. unfold vbind at 1. cbn [look]. destruct (s_get HS (heads w) h) as [hv|e]; [|discriminate].
    unfold vbind at 1. cbn [look]. destruct (make_changeset re_w tk b hv) as [cs|e]; [|discriminate].
    destruct (add_edge HS DS T0 tag h cs w) as [tr1 [w1 r1]] eqn:He. intros [= _ <- ->]. exact (Edge _ _ _ _ _ _ He). }
  unfold vbind at 1 in H. destruct (c v2) as [tr1 [w1 [[]|e]]] eqn:Hc; [|discriminate].
  destruct (g tt w1) as [tr2 [w2 r2]] eqn:Hg. injection H as _ -> ->.
  exists (tree w1). split; [reflexivity|]. split; [exact Hs|]. split; [|exact (Tail _ _ _ Hg)].
  unfold c in Hc. destruct (teq sp h); [injection Hc as _ <-; reflexivity|].
  unfold vbind at 1 in Hc. cbn [look] in Hc. destruct (retrieve_using_path re_w tk HS DS T0 v2 p) as [sv|e]; [|discriminate].
  unfold vbind at 1 in Hc. cbn [look] in Hc. destruct (make_changeset re_w tk b sv) as [cs|e]; [|discriminate].
  unfold vbind at 1 in Hc. destruct (add_edge HS DS T0 tag sp cs v2) as [tr3 [w3 [[]|e]]] eqn:He; [|discriminate].
  apply Edge in He. exists (tree w3). split; [exact He|]. unfold on_tree in Hc.
  destruct (tr_change_parent T0 sp tag (tree w3)) as [t r]. injection Hc as _ <- ->. reflexivity.
Qed.

(** an action that leaves no trace has done nothing *)
Definition still {A} (c : vm HS DS T0 A) : Prop := forall v, length (fst (c v)) = 0 -> fst (snd (c v)) = v.
Lemma still_look {A} (f : vstate HS DS T0 -> res A) : still (look HS DS T0 f).
Proof. intros v _; reflexivity. Qed.
Lemma still_bind {A B} (c : vm HS DS T0 A) (f : A -> vm HS DS T0 B) : still c -> (forall a, still (f a)) -> still (vbind HS DS T0 c f).
Proof.
  intros H1 H2 v. unfold vbind. specialize (H1 v). destruct (c v) as [t1 [v1 [a|e]]]; cbn [fst snd] in *; [|auto].
  specialize (H2 a v1). destruct (f a v1) as [t2 r]; cbn [fst snd] in *. rewrite app_length. intros Q.
  rewrite H2 by lia. apply H1; lia.
Qed.
Lemma still_tree f : still (on_tree HS DS T0 f).
Proof. intros v; unfold on_tree; destruct (f (tree v)); cbn; discriminate. Qed.
Lemma still_edge p c cs : still (add_edge HS DS T0 p c cs).
Proof.
  unfold add_edge. apply still_bind; [apply still_look|intros d].
  apply still_bind; [intros v; cbn; discriminate|intros _]. apply still_bind; [apply still_tree|intros _].
  apply still_bind; [apply still_look|intros []]; [|intros v _; reflexivity].
  intros v. unfold del_head. destruct (s_del HS c (heads v)); cbn; discriminate.
Qed.
Lemma add_still tag b base v v1 v2 v' r : add re_w tk HS DS T0 tag b base v = ([v1; v2], (v', r)) ->
  tree v' = fst (tr_add T0 tag base (tree v)).
Proof.
  unfold add. unfold vbind at 1. cbn [set_head]. unfold vbind at 1. unfold on_tree at 1. cbn [tree heads diffs].
  destruct (tr_add T0 tag base (tree v)) as [t1 [[]|e]]; [|intros [= _ _ <- _]; reflexivity].
  set (w := mkV _ _ t1).
  match goal with |- context [match ?b with Some _ => _ | None => _ end w] =>
    match goal with |- context [let '(_, _) := ?c w in _] => set (q := c) end end.
  assert (F : still q).
  { unfold q. destruct base as [h|]; [|intros u _; reflexivity].
    apply still_bind; [apply still_look|intros sp]. apply still_bind.
    - destruct (teq (fst sp) h); [intros u _; reflexivity|].
      apply still_bind; [apply still_look|intros sv]. apply still_bind; [apply still_look|intros cs].
      apply still_bind; [apply still_edge|intros _]. apply still_tree.
    - intros _. apply still_bind; [apply still_look|intros sv]. apply still_bind; [apply still_look|intros cs]. apply still_edge. }
  specialize (F w). destruct (q w) as [t2 [v3 r3]]; cbn [fst snd] in *. intros Q.
  pose proof (f_equal (fun z => length (fst z)) Q) as Q1. pose proof (f_equal (fun z => fst (snd z)) Q) as Q2.
  cbn [fst snd length app] in Q1, Q2. subst v3. rewrite F; [reflexivity|lia].
Qed.
End AnyTree.

Hypothesis change_exact : forall t s k r n0 nr lk lr, rep TL t s -> dget s k = Some n0 -> dget s r = Some nr ->
  up s k lk -> up s r lr -> ~ In k lr -> rep_free TL \/ slot_free s k n0 r nr ->
  fst (change k r t) = length lr + (length lk - 1).
Variable HL : store_law HS.
Variable DL : store_law DS.
Notation runc := (run re_w tk HS DS CT).
Notation hist_inv := (hist_inv re_w tk HS DS CT HL DL counted_law).
Definition steps_of (v : vstate HS DS CT) : nat := fst (tree v).

Lemma move_counted t s k r n0 nr lk lr : rep counted_law t s -> dget s k = Some n0 -> dget s r = Some nr ->
  up s k lk -> up s r lr -> ~ In k lr -> slot_free s k n0 r nr -> forall t', tr_change_parent CT k r t = (t', Ok tt) ->
  fst t' = fst t + (length lr + (length lk - 1)) /\ exists s', rep counted_law t' s' /\ reparented s s' k r.
Proof.
  intros R H0 Hr Hk Hu Hn SF t' Hc.
  destruct (rep_move _ counted_law t s k r n0 nr lr R H0 Hr Hu Hn (or_intror SF)) as [t2 [s' [Hc' [R' P]]]].
  assert (t2 = t') by congruence. subst t2. split; [|eauto].
  rewrite <- (change_exact (snd t) s k r n0 nr lk lr R H0 Hr Hk Hu Hn (or_intror SF)).
  cbn [counted tr_change_parent] in Hc. destruct (change k r (snd t)) as [n [t2 o]]. injection Hc as <- _. reflexivity.
Qed.

Lemma add_counted t s tag x n t1 : rep counted_law t s -> dget s tag = None -> dget s x = Some n -> parent n = None ->
  tr_add CT tag (Some x) t = (t1, Ok tt) ->
  exists p, tr_get_split CT t1 x = Ok (last p x, p) /\ split_way s 1 x p /\
  forall t2 t3, (if teq (last p x) x then t2 = t1 else exists ta, tr_change_parent CT (last p x) tag t1 = (ta, Ok tt) /\
      tr_change_parent CT (last p x) tag ta = (t2, Ok tt)) ->
    tr_change_parent CT x tag t2 = (t3, Ok tt) ->
    fst t3 = fst t + (if length p =? 1 then 1 else length p + 3).
Proof.
  intros R Ntag Hn Hp Ha.
  assert (Hxt : x <> tag) by congruence.
  destruct (rep_add _ counted_law t s tag (Some x) R Ntag) as [t1' [Ha' R1]]. assert (t1' = t1) by congruence. subst t1'.
  assert (C1 : fst t1 = fst t).
  { cbn [counted tr_add] in Ha. destruct (tr_add TR tag (Some x) (snd t)). injection Ha as <- _. reflexivity. }
  set (s1 := fst (m_add tag (Some x) s)) in *.
  destruct (add_gets s tag (Some x) Ntag) as [G _]. fold s1 in G.
  assert (Gt : exists nt, dget s1 tag = Some nt /\ parent nt = None /\ base nt = Some x).
  { rewrite G, teq_refl. eexists; repeat split; reflexivity. }
  destruct Gt as [nt [Gt [Pt Bt]]].
  assert (Gx : dget s1 x = Some n) by (rewrite G; destruct (teq_spec tag x); congruence).
  assert (Hut : up s1 tag [tag]) by (eapply up_root; eauto).
  assert (Hux : up s1 x [x]) by (eapply up_root; eauto).
  assert (Nc : forall c, ~ child_of s1 c tag).
  { intros c [m [Hm Hq]]. rewrite G in Hm. destruct (teq_spec tag c) as [<-|Hc]; [injection Hm as <-; discriminate|].
    pose proof (rep_shape _ counted_law _ _ R) as [_ [F _]]. destruct (F c) as [l Hl]; [congruence|].
    inversion Hl; subst; [congruence|]. assert (n0 = m) by congruence; subst. assert (q = tag) by congruence; subst.
    match goal with H : up s tag _ |- _ => inversion H; congruence end. }
  destruct (rep_way _ counted_law t1 s1 x n R1 Gx) as [p [Hs Hw]]. exists p. split; [exact Hs|].
  split; [apply (split_way_before s tag (Some x) Ntag _ _ _ Hw); exact Hxt|].
  pose proof (split_way_down _ _ _ _ Hw) as Hd.
  destruct (down_up_chain s1 x p Hd [x] Hux) as [l' [Hul [Hlen _]]].
  assert (Hp1 : 1 <= length p) by (destruct (down_first _ _ _ Hd) as [p' ->]; cbn; lia).
  intros t2 t3 H2 H3.
  (* the last move *)
  assert (Last : forall t2 s2, rep counted_law t2 s2 -> up s2 tag [tag] -> up s2 x [x] ->
     (exists m, dget s2 tag = Some m /\ base m = Some x) -> tr_change_parent CT x tag t2 = (t3, Ok tt) -> fst t3 = fst t2 + 1).
  { intros t0 s2 R2 Ut Ux [m [Hm Bm]] Hc.
    assert (Qx : exists nx, dget s2 x = Some nx /\ parent nx = None).
    { inversion Ux as [? nx A B|? nx q l A B C]; subst; [eauto|]. inversion C. }
    destruct Qx as [nx [Hnx Px]].
    destruct (move_counted t0 s2 x tag nx m [x] [tag] R2 Hnx Hm Ux Ut) with (t' := t3) as [Q _]; [| |exact Hc|cbn in Q; lia].
    - intros [->|[]]; congruence.
    - unfold slot_free. now rewrite Px. }
  destruct (teq_spec (last p x) x) as [Hsp|Hsp].
  - subst t2. assert (Hl : length p = 1).
    { rewrite Hsp in Hul. pose proof (up_fun _ _ _ Hul _ Hux) as Q. destruct l' as [|y l']; [cbn in Hlen; lia|].
      destruct l'; discriminate. }
    rewrite Hl, Nat.eqb_refl. rewrite (Last t1 s1 R1 Hut Hux) by eauto. lia.
  - destruct H2 as [ta [M1 M2]]. set (sp := last p x) in *.
    assert (Hl : length p <> 1).
    { intros Q. apply Hsp. destruct (down_first _ _ _ Hd) as [p' Hp']. unfold sp. rewrite Hp' in *. destruct p'; [reflexivity|discriminate]. }
    assert (Hspt : sp <> tag).
    { intros Q. rewrite Q in Hul. pose proof (up_fun _ _ _ Hul _ Hut) as Hx.
      destruct l' as [|y l']; cbn in Hx; [injection Hx; congruence|]. destruct l'; discriminate. }
    assert (Hnsp : exists nsp q0, dget s1 sp = Some nsp /\ parent nsp = Some q0).
    { destruct (dget s1 sp) as [nsp|] eqn:Hnsp; [|now apply up_known in Hul]. exists nsp.
      destruct (parent nsp) as [q0|] eqn:Hq0; [eauto|exfalso].
      pose proof (up_fun _ _ _ Hul _ (up_root s1 sp nsp Hnsp Hq0)) as Hx.
      destruct l' as [|y l']; cbn in Hx; [injection Hx; congruence|]. destruct l'; discriminate. }
    destruct Hnsp as [nsp [q0 [Hnsp Hpsp]]].
    destruct (move_counted t1 s1 sp tag nsp nt _ [tag] R1 Hnsp Gt Hul Hut) with (t' := ta) as [Q1 [sa [Ra Pa]]]; [| |exact M1|].
    { intros [?|[]]; congruence. }
    { unfold slot_free. rewrite Hpsp. split; [congruence|]. intros c Hc; now apply Nc in Hc. }
    destruct (reparented_get _ _ _ _ _ _ Pa Hnsp) as [nsa [Hsa [Hpa _]]]. rewrite teq_refl in Hpa.
    destruct (reparented_get _ _ _ _ _ _ Pa Gt) as [nta [Hta [Hpta Hbta]]].
    assert (Hst : teq sp tag = false) by (destruct (teq_spec sp tag); congruence). rewrite Hst in Hpta.
    assert (Uta : up sa tag [tag]) by (eapply up_root; [exact Hta|congruence]).
    assert (Usa : up sa sp [sp; tag]) by (eapply up_step; eauto).
    destruct (move_counted ta sa sp tag nsa nta _ [tag] Ra Hsa Hta Usa Uta) with (t' := t2) as [Q2 [sb [Rb Pb]]]; [| |exact M2|].
    { intros [?|[]]; congruence. }
    { unfold slot_free. rewrite Hpa. split; [congruence|]. intros c Hc.
      apply (reparented_child _ _ _ _ c tag Pa) in Hc as [[-> _]|[_ Hc]]; [reflexivity|now apply Nc in Hc]. }
    destruct (reparented_get _ _ _ _ _ _ Pb Hta) as [ntb [Htb [Hptb Hbtb]]]. rewrite Hst in Hptb.
    assert (Nsx : ~ In sp [x]) by (intros [?|[]]; congruence).
    rewrite (Last t2 sb Rb).
    + rewrite Q2, Q1, C1. destruct (Nat.eqb_spec (length p) 1); [contradiction|]. rewrite app_length, Hlen. cbn [length]. lia.
    + eapply up_root; [exact Htb|congruence].
    + apply (reparented_up _ _ _ _ _ _ Pb); [|exact Nsx]. exact (reparented_up _ _ _ _ _ _ Pa Hux Nsx).
    + exists ntb. split; congruence.
    + exact H3.
Qed.

Theorem step_cost h a : tk <> KLine -> fresh tk (h ++ [a]) ->
  (match base_of a with None => True | Some x => ~ is_head h x end -> steps_of (runc v_empty (h ++ [a])) = steps_of (runc v_empty h)) /\
  (forall x, base_of a = Some x -> is_head h x -> exists p,
     tr_get_split TR (fst (tr_add TR (tag_of a) (Some x) (tree (run re_w tk HS DS TR v_empty h)))) x = Ok (last p x, p) /\
     length p * (length p - 1) <= 2 * length h /\
     (forall ls, line h x ls -> length p * (length p - 1) <= length ls /\ length ls < length p * (length p + 1)) /\
     steps_of (runc v_empty (h ++ [a])) = steps_of (runc v_empty h) + (if length p =? 1 then 1 else length p + 3)).
Proof.
  intros Hk F. destruct (fresh_snoc _ _ _ F) as [F' [Hna [Hb Sb]]]. rewrite run_snoc.
  destruct (hist_ok re_w tk HS DS CT HL DL counted_law h Hk F') as [s I].
  destruct a as [[tag b] base]. cbn [tag_of bytes_of base_of fst snd] in *.
  pose proof (h_core _ _ _ _ _ _ _ _ _ _ _ I) as C. pose proof (h_tidy _ _ _ _ _ _ _ _ _ _ _ I) as T.
  pose proof (proj2 (V_of_none h tag) Hna) as Hv. cbn [add_state].
  pose proof (c_rep _ _ _ _ _ _ _ _ _ _ _ _ C) as R.
  assert (Keep : forall base, fst (fst (tr_add CT tag base (tree (runc v_empty h)))) = fst (tree (runc v_empty h))).
  { intros bs. cbn [counted tr_add]. now destruct (tr_add TR tag bs (snd (tree (runc v_empty h)))). }
  split.
  - intros Hx. unfold steps_of. destruct base as [x|].
    + assert (Vn : view HL (heads (runc v_empty h)) x = None).
      { destruct (view HL (heads (runc v_empty h)) x) eqn:Q; [|reflexivity]. exfalso; apply Hx.
        apply (heads_view re_w tk HS DS CT HL DL counted_law _ _ _ x I). congruence. }
      destruct (add_rejected re_w tk HS DS CT HL DL counted_law (V_of h) _ s tag b x C T Hv Sb ltac:(congruence) Vn) as [v1 [v2 [e [Ha _]]]].
      rewrite Ha. cbn [fst snd]. rewrite (add_still _ _ _ _ _ _ _ _ _ Ha). apply Keep.
    + destruct (add_none re_w tk HS DS CT HL DL counted_law (V_of h) _ s tag b C T Hv Sb) as [v1 [v2 [Ha _]]].
      rewrite Ha. cbn [fst snd]. rewrite (add_still _ _ _ _ _ _ _ _ _ Ha). apply Keep.
  - intros x -> Hx.
    destruct (add_accepted re_w tk HS DS CT HL DL counted_law (V_of h) _ s tag b x C T Hv Sb) as [tr [v' [s' [Ha _]]]].
    { now apply (heads_view re_w tk HS DS CT HL DL counted_law h _ s). } { now left. }
    rewrite Ha. cbn [fst snd]. destruct (add_tree _ _ _ _ _ _ _ Ha) as [t1 [sp [p [t2 [A1 [A2 [A3 A4]]]]]]].
    assert (Ntag : dget s tag = None) by (now apply (known_added re_w tk HS DS CT HL DL counted_law _ _ _ _ I)).
    destruct (dget s x) as [n|] eqn:Hn.
    2: { apply (known_added re_w tk HS DS CT HL DL counted_law _ _ _ _ I) in Hn. apply is_head_added in Hx. contradiction. }
    assert (Hp : parent n = None) by (now apply (h_head _ _ _ _ _ _ _ _ _ _ _ I x n)).
    destruct (add_counted _ s tag x n t1 R Ntag Hn Hp A1) as [p' [B1 [B2 B3]]].
    pose proof A2 as A2'. rewrite A2 in B1. injection B1 as -> ->.
    destruct (sqrt_paths re_w tk HS DS CT HL DL counted_law h Hk F') as [s0 [R0 [_ P]]].
    destruct (P x Hx) as [n0 [q [Hq [_ [Bq Lq]]]]].
    destruct (rep_way _ counted_law _ s x n R Hn) as [q' [Hq' Hw']].
    assert (q' = q) by congruence. subst q'.
    assert (q = p') by (eapply way_unique; [exact (inv_numbered re_w tk HS DS CT HL DL counted_law h _ s F' I)|exact Hw'|exact B2]). subst q.
    exists p'. split; [|split; [|split]].
    + pose proof (run_forget h v_empty) as Q. change (forget v_empty) with (v_empty : vstate HS DS TR) in Q. rewrite <- Q. cbn [forget tree].
      cbn [counted tr_add] in A1. destruct (tr_add TR tag (Some x) (snd (tree (runc v_empty h)))) as [t1' r1].
      injection A1 as <- _. exact A2'.
    + nia.
    + intros ls Ln. destruct (exact_ways re_w tk HS DS CT HL DL counted_law h Hk F' x ls Hx Ln) as [_ (y & w & sp & q & My & W & _ & Fq & Q)].
      assert (q = p') by congruence. subst q. replace (length p') with (length w) by (clear - Fq; induction Fq; cbn; congruence). apply (split_length _ y); [|exact My|exact W].
      clear - Ln; induction Ln; cbn [length]; lia.
    + unfold steps_of. exact (B3 t2 (tree v') A3 A4).
Qed.

Theorem total_cost h : tk <> KLine -> fresh tk h ->
  steps_of (runc v_empty h) <= length h * (Nat.sqrt (2 * length h) + 4).
Proof.
  intros Hk F.
  assert (Q : forall h', fresh tk h' -> length h' <= length h -> steps_of (runc v_empty h') <= length h' * (Nat.sqrt (2 * length h) + 4)).
  { induction h' as [|a h' IH] using rev_ind; intros F' L; [cbn; lia|]. rewrite app_length in *. cbn [length] in *.
    destruct (fresh_snoc _ _ _ F') as [F2 _]. specialize (IH F2 ltac:(lia)).
    destruct (hist_ok re_w tk HS DS CT HL DL counted_law h' Hk F2) as [s I].
    destruct (step_cost h' a Hk F') as [S1 S2].
    destruct (base_of a) as [x|] eqn:Bx.
    - destruct (is_head_dec re_w tk HS DS CT HL DL counted_law h' x _ s I) as [Hx|Hx].
      + destruct (S2 x eq_refl Hx) as [p [_ [Bp [_ ->]]]].
        assert (length p <= Nat.sqrt (2 * length h) + 1).
        { destruct (length p) as [|m] eqn:Lp; [lia|]. assert (m <= Nat.sqrt (2 * length h)); [|lia].
          apply Nat.sqrt_le_square. cbn [Nat.sub] in Bp. rewrite Nat.sub_0_r in Bp. nia. }
        destruct (length p =? 1); nia.
      + rewrite (S1 Hx). nia.
    - rewrite (S1 Logic.I). nia. }
  apply Q; [exact F|lia].
Qed.

Lemma line_short (h : list (adding K)) x ls : line h x ls -> length ls <= length h.
Proof. induction 1; rewrite app_length; cbn [length]; lia. Qed.
(** all versions on one line *)
Lemma sum_step n d m s : n * (n - 1) <= S m <= n * (n + 1) -> d * (d - 1) <= m -> m < d * (d + 1) ->
  3 * s + 21 = (d - 1) * d * (2 * d - 1) + 3 * d * (m - d * (d - 1)) + 9 * m ->
  3 * (s + (d + 3)) + 21 = (n - 1) * n * (2 * n - 1) + 3 * n * (S m - n * (n - 1)) + 9 * S m.
Proof.
  intros A B C Q. destruct d as [|d]; [lia|]. destruct n as [|n]; [lia|].
  replace (S n - 1) with n in * by lia. replace (S d - 1) with d in * by lia.
  replace (2 * S n - 1) with (2 * n + 1) by lia. replace (2 * S d - 1) with (2 * d + 1) in Q by lia.
  destruct (Nat.lt_trichotomy n d) as [L|[->|L]].
  - assert (S n = d) by nia. subst d. assert (S m = S n * (S n + 1)) by nia. nia.
  - remember (m - S d * d) as r. assert (m = S d * d + r) by lia. replace (S m - S d * d) with (S r) by lia. nia.
  - assert (n = S d) by nia. subst n. assert (S m = S d * (S d + 1)) by nia.
    replace (m - S d * d) with (2 * d + 1) in Q by nia. replace (S m - S (S d) * S d) with 0 by nia. nia.
Qed.
Theorem line_cost h x ls : tk <> KLine -> fresh tk h -> line h x ls -> length ls = length h ->
  (length h = 1 -> steps_of (runc v_empty h) = 0) /\
  (2 <= length h -> forall n, n * (n - 1) <= length h <= n * (n + 1) ->
     3 * steps_of (runc v_empty h) + 21 = (n - 1) * n * (2 * n - 1) + 3 * n * (length h - n * (n - 1)) + 9 * length h).
Proof.
  intros Hk F Ln. induction Ln as [h a Hb|h a x l Hb Hx Ln IH|h a x l Hb Ln IH]; rewrite app_length; cbn [length]; intros Q.
  - assert (length h = 0) by lia. destruct h; [|discriminate]. split; [|cbn; lia]. intros _. now rewrite (proj1 (step_cost [] a Hk F) Hb).
  - destruct (fresh_snoc _ _ _ F) as [F' _]. assert (Ql : length l = length h) by lia.
    destruct (step_cost h a Hk F) as [_ S2]. destruct (S2 x Hb Hx) as [p [_ [_ [B S]]]]. specialize (B l Ln). rewrite Ql in B.
    destruct (IH F' Ql) as [IH1 IH2]. rewrite S. clear S S2 IH. assert (0 < length h) by (rewrite <- Ql; clear - Ln; induction Ln; cbn [length]; lia).
    set (m := length h) in *. set (d := length p) in *. clearbody m d. split; [lia|]. intros _ n A.
    destruct (Nat.eq_dec m 1) as [->|M1].
    + assert (d = 1) by nia. subst d. rewrite IH1 by reflexivity. cbn [Nat.eqb]. assert (n = 1 \/ n = 2) as [->| ->] by nia; reflexivity.
    + replace (d =? 1) with false by (symmetry; apply Nat.eqb_neq; nia). replace (m + 1) with (S m) in * by lia.
      apply (sum_step n d m); [exact A|lia|lia|]. apply IH2; lia.
  - pose proof (line_short _ _ _ Ln). lia.
Qed.
End Law.

Section Both.
Context {K : Type} {E : Teq K} {O : TeqOk K}.
Variable re_w : Z -> bool.
Variable tk : tkind.
Notation D := (dict_store K).
Notation C := (db_store K).
Notation M := (memory_tree K).
Notation T := (db_tree K).
Definition m_change (k r : K) (s : tree_t M) : nat * (tree_t M * res unit) := m_change_parent_n k (Some r) s.
Lemma m_same k r t : snd (m_change k r t) = tr_change_parent M k r t.
Proof. apply change_erase. Qed.
Lemma m_exact t s k r n0 nr lk lr : rep (TR := M) memory_law t s -> dget s k = Some n0 -> dget s r = Some nr ->
  up s k lk -> up s r lr -> ~ In k lr -> rep_free (TR := M) memory_law \/ slot_free s k n0 r nr ->
  fst (m_change k r t) = length lr + (length lk - 1).
Proof. intros [-> W] _ _ Hk Hr Hn _. now apply change_count. Qed.
Lemma d_exact t s k r n0 nr lk lr : rep (TR := T) db_law t s -> dget s k = Some n0 -> dget s r = Some nr ->
  up s k lk -> up s r lr -> ~ In k lr -> rep_free (TR := T) db_law \/ slot_free s k n0 r nr ->
  fst (d_change_parent_n k r t) = length lr + (length lk - 1).
Proof. intros R Hk Hr Uk Ur Hn [[]|SF]. now apply (d_change_count t s k r n0 nr lk lr). Qed.

Theorem steps_memory h a : tk <> KLine -> fresh tk (h ++ [a]) ->
  let steps h := fst (tree (run re_w tk D D (counted_memory K) v_empty h)) in
  (match base_of a with None => True | Some x => ~ is_head h x end -> steps (h ++ [a]) = steps h) /\
  (forall x, base_of a = Some x -> is_head h x -> exists p,
     m_get_split_n (fst (m_add (tag_of a) (Some x) (tree (run re_w tk D D M v_empty h)))) x = (length p - 1, Ok (last p x, p)) /\
     length p * (length p - 1) <= 2 * length h /\
     (forall ls, line h x ls -> length p * (length p - 1) <= length ls /\ length ls < length p * (length p + 1)) /\
     steps (h ++ [a]) = steps h + (if length p =? 1 then 1 else length p + 3)).
Proof.
  intros Hk F. destruct (step_cost M memory_law m_change m_same re_w tk D D m_exact dict_law dict_law h a Hk F) as [S1 S2].
  split; [exact S1|]. intros x Hb Hx. destruct (S2 x Hb Hx) as [p [Hp Q]]. exists p. split; [|exact Q].
  apply split_count. exact Hp.
Qed.
Theorem steps_db place1 place2 h a : tk <> KLine -> fresh tk (h ++ [a]) ->
  let steps h := fst (tree (run re_w tk (C place1) (C place2) (counted_db K) v_empty h)) in
  (match base_of a with None => True | Some x => ~ is_head h x end -> steps (h ++ [a]) = steps h) /\
  (forall x, base_of a = Some x -> is_head h x -> exists p,
     d_get_split_n (fst (d_add (tag_of a) (Some x) (tree (run re_w tk (C place1) (C place2) T v_empty h)))) x = (length p - 1, Ok (last p x, p)) /\
     length p * (length p - 1) <= 2 * length h /\
     (forall ls, line h x ls -> length p * (length p - 1) <= length ls /\ length ls < length p * (length p + 1)) /\
     steps (h ++ [a]) = steps h + (if length p =? 1 then 1 else length p + 3)).
Proof.
  intros Hk F. destruct (step_cost T db_law d_change_parent_n d_change_erase re_w tk (C place1) (C place2) d_exact
    (db_store_law place1) (db_store_law place2) h a Hk F) as [S1 S2].
  split; [exact S1|]. intros x Hb Hx. destruct (S2 x Hb Hx) as [p [Hp Q]]. exists p. split; [|exact Q].
  apply d_split_count. exact Hp.
Qed.
Theorem total_memory h : tk <> KLine -> fresh tk h ->
  fst (tree (run re_w tk D D (counted_memory K) v_empty h)) <= length h * (Nat.sqrt (2 * length h) + 4).
Proof. exact (total_cost M memory_law m_change m_same re_w tk D D m_exact dict_law dict_law h). Qed.
Theorem total_db place1 place2 h : tk <> KLine -> fresh tk h ->
  fst (tree (run re_w tk (C place1) (C place2) (counted_db K) v_empty h)) <= length h * (Nat.sqrt (2 * length h) + 4).
Proof.
  exact (total_cost T db_law d_change_parent_n d_change_erase re_w tk (C place1) (C place2) d_exact
    (db_store_law place1) (db_store_law place2) h).
Qed.
Theorem counted_same h :
  let v := run re_w tk D D (counted_memory K) v_empty h in let w := run re_w tk D D M v_empty h in
  heads v = heads w /\ diffs v = diffs w /\ snd (tree v) = tree w.
Proof.
  intros v w. pose proof (run_forget M m_change m_same re_w tk D D h v_empty) as Q.
  change (forget M m_change D D v_empty) with (v_empty : vstate D D M) in Q. unfold w. rewrite <- Q. repeat split.
Qed.
Theorem counted_same_db place1 place2 h :
  let v := run re_w tk (C place1) (C place2) (counted_db K) v_empty h in let w := run re_w tk (C place1) (C place2) T v_empty h in
  heads v = heads w /\ diffs v = diffs w /\ snd (tree v) = tree w.
Proof.
  intros v w. pose proof (run_forget T d_change_parent_n d_change_erase re_w tk (C place1) (C place2) h v_empty) as Q.
  change (forget T d_change_parent_n (C place1) (C place2) v_empty) with (v_empty : vstate (C place1) (C place2) T) in Q.
  unfold w. rewrite <- Q. repeat split.
Qed.
Theorem line_memory h x ls : tk <> KLine -> fresh tk h -> line h x ls -> length ls = length h ->
  let steps := fst (tree (run re_w tk D D (counted_memory K) v_empty h)) in
  (length h = 1 -> steps = 0) /\
  (2 <= length h -> forall n, n * (n - 1) <= length h <= n * (n + 1) ->
     3 * steps + 21 = (n - 1) * n * (2 * n - 1) + 3 * n * (length h - n * (n - 1)) + 9 * length h).
Proof. exact (line_cost M memory_law m_change m_same re_w tk D D m_exact dict_law dict_law h x ls). Qed.
Theorem line_db place1 place2 h x ls : tk <> KLine -> fresh tk h -> line h x ls -> length ls = length h ->
  let steps := fst (tree (run re_w tk (C place1) (C place2) (counted_db K) v_empty h)) in
  (length h = 1 -> steps = 0) /\
  (2 <= length h -> forall n, n * (n - 1) <= length h <= n * (n + 1) ->
     3 * steps + 21 = (n - 1) * n * (2 * n - 1) + 3 * n * (length h - n * (n - 1)) + 9 * length h).
Proof.
  exact (line_cost T db_law d_change_parent_n d_change_erase re_w tk (C place1) (C place2) d_exact
    (db_store_law place1) (db_store_law place2) h x ls).
Qed.
(** retrieving *)
Theorem path_steps h : tk <> KLine -> fresh tk h -> forall t, added h t -> exists p,
  m_path_to_n (tree (run re_w tk D D M v_empty h)) t = (length p, Ok (Some p)) /\ length p * (length p + 2) <= 8 * length h.
Proof.
  intros Hk F t Ha. destruct (proj1 (sqrt_memory re_w tk h Hk F) t Ha) as [r [n [p [H1 [_ [_ [H2 H3]]]]]]].
  exists (r :: p). split; [now apply path_count|]. cbn [length]. nia.
Qed.
End Both.
