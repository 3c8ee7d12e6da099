(** Further facts about [Versions]: the number of writes, adding a tag again,
    a tag that is its own base. *)
From Coq Require Import ZArith Lia.
From Verif Require Import Base SpecSeq Changesets Serialize SpecSerialize
  Tokenizers SpecTokenizers TokenizersProofs Tree SpecTree TreeProofs TreeExact
  Versions SpecVersions VersionsPatch VersionsInv VersionsProofs.

(** * Writes *)
Section Writes.
Context {K : Type} {E : Teq K}.
Variable re_w : Z -> bool.
Variable tk : tkind.
Variables HS DS : store K.
Variable TR : tree_impl K.
Notation CS := (counted DS).
Notation CH := (counted HS).
Notation vstate := (@vstate K CH CS TR).
Definition writes (v : vstate) : nat := fst (diffs v).
Definition head_writes (v : vstate) : nat := fst (heads v).

Definition costs {A} (n m : nat) (c : vm CH CS TR A) : Prop := forall v,
  writes (fst (snd (c v))) <= writes v + n /\ head_writes (fst (snd (c v))) <= head_writes v + m.
Lemma costs_ret {A} (a : A) : costs 0 0 (vret CH CS TR a).
Proof. intros v; cbn; lia. Qed.
Lemma costs_look {A} (f : vstate -> res A) : costs 0 0 (look CH CS TR f).
Proof. intros v; cbn; lia. Qed.
Lemma costs_bind {A B} n m p q (c : vm CH CS TR A) (f : A -> vm CH CS TR B) :
  costs n m c -> (forall a, costs p q (f a)) -> costs (n + p) (m + q) (vbind CH CS TR c f).
Proof.
  intros H1 H2 v. unfold vbind. specialize (H1 v). destruct (c v) as [t1 [v1 [a|e]]]; cbn [fst snd] in *.
  - specialize (H2 a v1). destruct (f a v1) as [t2 r]; cbn [fst snd] in *. lia.
  - lia.
Qed.
Lemma costs_tree f : costs 0 0 (on_tree CH CS TR f).
Proof. intros v; unfold on_tree; destruct (f (tree v)); cbn; unfold writes, head_writes; cbn; lia. Qed.
Lemma costs_set_diff k b : costs 1 0 (set_diff CH CS TR k b).
Proof. intros v; cbn; unfold writes, head_writes; cbn; lia. Qed.
Lemma costs_set_head k b : costs 0 1 (set_head CH CS TR k b).
Proof. intros v; cbn; unfold writes, head_writes; cbn; lia. Qed.
Lemma costs_del_head k : costs 0 0 (del_head CH CS TR k).
Proof.
  intros v; unfold del_head; cbn. destruct (s_del HS k (snd (heads v))); cbn; unfold writes, head_writes; cbn; lia.
Qed.
Lemma costs_edge p c cs : costs 1 0 (add_edge CH CS TR p c cs).
Proof.
  unfold add_edge. apply (costs_bind 0 0 1 0); [apply costs_look|intros d].
  apply (costs_bind 1 0 0 0); [apply costs_set_diff|intros _].
  apply (costs_bind 0 0 0 0); [apply costs_tree|intros _].
  apply (costs_bind 0 0 0 0); [apply costs_look|intros []]; [apply costs_del_head|apply costs_ret].
Qed.
Lemma costs_add tag b base : costs 2 1 (add re_w tk CH CS TR tag b base).
Proof.
  unfold add. apply (costs_bind 0 1 2 0); [apply costs_set_head|intros _].
  apply (costs_bind 0 0 2 0); [apply costs_tree|intros _].
  destruct base as [h|].
  2: { intros v; cbn; lia. }
  apply (costs_bind 0 0 2 0); [apply costs_look|intros sp].
  apply (costs_bind 1 0 1 0).
  - destruct (teq (fst sp) h); [intros v; cbn; lia|].
    apply (costs_bind 0 0 1 0); [apply costs_look|intros sv].
    apply (costs_bind 0 0 1 0); [apply costs_look|intros cs].
    apply (costs_bind 1 0 0 0); [apply costs_edge|intros _]. apply costs_tree.
  - intros _. apply (costs_bind 0 0 1 0); [apply costs_look|intros sv].
    apply (costs_bind 0 0 1 0); [apply costs_look|intros cs]. apply costs_edge.
Qed.
Theorem writes_bound h v : writes (run re_w tk CH CS TR v h) <= writes v + 2 * length h /\
  head_writes (run re_w tk CH CS TR v h) <= head_writes v + length h.
Proof.
  revert v; induction h as [|[[tag b] base] h IH]; intros v; cbn [run fold_left length]; [lia|].
  specialize (IH (add_state re_w tk CH CS TR v (tag, b, base))).
  destruct (costs_add tag b base v) as [C1 C2]. cbn [add_state] in *. unfold run in IH. lia.
Qed.
End Writes.

(** * Adding a tag again *)
Section Again.
Context {K : Type} {E : Teq K} {O : TeqOk K}.
Variable re_w : Z -> bool.
Variable tk : tkind.
Variables HS DS : store K.
Variable HL : store_law HS.
Variable DL : store_law DS.
Notation TR := (memory_tree K).
Notation TL := (@memory_law K E O).
Notation run := (run re_w tk HS DS TR).
Notation add := (add re_w tk HS DS TR).
Notation add_state := (add_state re_w tk HS DS TR).
Notation add_result := (add_result re_w tk HS DS TR).
Notation get := (get re_w tk HS DS TR).
Notation core := (core re_w tk HS DS TR HL DL TL).
Notation hist_inv := (hist_inv re_w tk HS DS TR HL DL TL).

Lemma renew_ok (s : nodes K) t n0 k b : tree_ok s -> dget s t = Some n0 -> parent n0 = None -> children n0 = [] ->
  tree_ok (dset s t (mkNode k None [] 1 1 b)).
Proof.
  intros [[N [F C]] M] Hn Hp Hc. set (s' := dset s t _).
  assert (G : forall u, dget s' u = if teq t u then Some (mkNode k None [] 1 1 b) else dget s u) by (intros; apply dget_dset).
  assert (Hmet : height n0 = 1 /\ size n0 = 1).
  { destruct (M t n0 Hn) as [h [z [Hm [-> ->]]]]. rewrite Hc in Hm; cbn in Hm; injection Hm as <- <-. auto. }
  assert (Hch : forall c q, child_of s' c q <-> child_of s c q).
  { intros c q; unfold child_of; rewrite G. destruct (teq_spec t c) as [<-|]; [|reflexivity].
    split; intros [n [H1 H2]]; [injection H1 as <-; discriminate|]. congruence. }
  assert (Hup : forall u l, up s u l -> up s' u l).
  { intros u l; induction 1 as [u n H1 H2|u n q l H1 H2 H IH].
    - destruct (teq_spec t u) as [Ht|Ht].
      + eapply up_root; [rewrite G, (proj2 (teq_ok t u) Ht); reflexivity|reflexivity].
      + eapply up_root with (n := n); [|exact H2]. rewrite G. destruct (teq_spec t u); [contradiction|exact H1].
    - eapply up_step with (n := n) (q := q); [|exact H2|exact IH]. rewrite G.
      destruct (teq_spec t u) as [<-|]; [congruence|exact H1]. }
  assert (Hcm : forall l, child_metrics s' l = child_metrics s l).
  { induction l as [|c l IH]; cbn; [reflexivity|]. rewrite G, IH. destruct (teq_spec t c) as [<-|]; [|reflexivity].
    rewrite Hn. destruct Hmet as [-> ->]. reflexivity. }
  split; [split; [now apply NoDup_dset|split]|].
  - intros u Hu. destruct (dget s u) as [n|] eqn:Hnu.
    + destruct (F u) as [l Hl]; [congruence|]. eauto.
    + exfalso; apply Hu. rewrite G. destruct (teq_spec t u); congruence.
  - intros u n Hu. rewrite G in Hu. destruct (teq_spec t u) as [<-|Htu].
    + injection Hu as <-. destruct (C t n0 Hn) as [_ C2]. rewrite Hc in C2.
      split; [constructor|]. intros c; rewrite Hch, <- C2; reflexivity.
    + destruct (C u n Hu) as [C1 C2]. split; [exact C1|]. intros c; now rewrite Hch, C2.
  - intros u n Hu. rewrite G in Hu. destruct (teq_spec t u) as [<-|Htu].
    + injection Hu as <-. exists 0, 0; auto.
    + rewrite Hcm. exact (M u n Hu).
Qed.

Theorem again_ok h t b b' : tk <> KLine -> fresh tk h -> In (t, b, None) h -> is_head h t -> storable tk b' ->
  let v := run v_empty h in
  add_result v (t, b', None) = Ok tt /\
  get (add_state v (t, b', None)) t = Ok (Some b') /\
  forall u bu base, In (u, bu, base) h -> u <> t -> get (add_state v (t, b', None)) u = Ok (Some bu).
Proof.
  intros Hk F Hin Hh Sb v. destruct (hist_ok re_w tk HS DS TR HL DL TL h Hk F) as [s I]. fold v in I.
  pose proof (h_core _ _ _ _ _ _ _ _ _ _ _ I) as C.
  pose proof (c_rep _ _ _ _ _ _ _ _ _ _ _ _ C) as R. destruct R as [Rt T].
  destruct (h_base _ _ _ _ _ _ _ _ _ _ _ I t b None Hin) as [n0 [Hn0 Hb0]].
  pose proof (proj2 (h_head _ _ _ _ _ _ _ _ _ _ _ I t n0 Hn0) Hh) as Hp0.
  assert (Hc0 : children n0 = []).
  { destruct (children n0) as [|c l] eqn:Hc; [reflexivity|exfalso].
    destruct T as [[_ [_ Cr]] _]. destruct (Cr t n0 Hn0) as [_ C2]. rewrite Hc in C2.
    destruct (h_child _ _ _ _ _ _ _ _ _ _ _ I c t (proj1 (C2 c) (or_introl eq_refl))) as [b2 [x Hin2]].
    destruct (h_base _ _ _ _ _ _ _ _ _ _ _ I t b2 (Some x) Hin2) as [n1 [Hn1 Hb1]]. congruence. }
  set (s2 := dset s t (mkNode (length s) None [] 1 1 None)).
  set (v2 := @mkV K HS DS TR (s_set HS t b' (heads v)) (diffs v) s2).
  assert (Hadd : add t b' None v = ([@mkV K HS DS TR (s_set HS t b' (heads v)) (diffs v) (tree v); v2], (v2, Ok tt))).
  { unfold Versions.add, set_head, on_tree, vbind, vret; cbn. unfold m_add. cbn in Rt. rewrite Rt. reflexivity. }
  assert (G : forall u, dget s2 u = if teq t u then Some (mkNode (length s) None [] 1 1 None) else dget s u) by (intros; apply dget_dset).
  assert (C2 : core None (upd (V_of h) t b') v2 s2).
  { split; cbn.
    - split; [reflexivity|]. now apply renew_ok with n0.
    - split; [apply fine_set, C|apply C].
    - intros u; rewrite G; unfold upd. destruct (teq t u); [split; discriminate|apply (c_dom _ _ _ _ _ _ _ _ _ _ _ _ C)].
    - intros u bu; unfold upd. destruct (teq t u); [intros [= <-]; exact Sb|apply (c_ok _ _ _ _ _ _ _ _ _ _ _ _ C)].
    - intros u n Hu Hpu. rewrite (view_set _ HL); unfold upd; rewrite G in Hu.
      destruct (teq t u); [reflexivity|]. now apply (c_head _ _ _ _ _ _ _ _ _ _ _ _ C u n).
    - intros u n q bq bu Hu Hpu Hq Hbu _. rewrite G in Hu. unfold upd in Hq, Hbu.
      destruct (teq_spec t u) as [<-|Htu]; [injection Hu as <-; discriminate|].
      destruct (teq_spec t q) as [<-|Htq].
      + exfalso. destruct T as [[_ [_ Cr]] _]. destruct (Cr t n0 Hn0) as [_ C2]. rewrite Hc0 in C2.
        apply (C2 u). exists n; auto.
      + eapply (c_diff _ _ _ _ _ _ _ _ _ _ _ _ C); eauto; discriminate. }
  assert (Hget : forall u bu, upd (V_of h) t b' u = Some bu -> get v2 u = Ok (Some bu)).
  { intros u bu Hu. destruct (ok_forest re_w tk HS DS TR HL DL TL _ v2 s2 None C2 u) as [l Hl]; [congruence|].
    apply (get_ok re_w tk HS DS TR HL DL TL None _ v2 s2 u bu l C2); auto. discriminate. }
  unfold Versions.add_result, Versions.add_state. rewrite Hadd; cbn [fst snd]. split; [reflexivity|]. split.
  - apply Hget. unfold upd; now rewrite teq_refl.
  - intros u bu base Hu Hut. apply Hget. unfold upd. destruct (teq_spec t u); [congruence|].
    eapply V_of_In; [apply F|exact Hu].
Qed.
End Again.

(** * A tag that is its own base *)
Section Self.
Context {K : Type} {E : Teq K} {O : TeqOk K}.
(** the loop of [_update_metrics] goes round for ever *)
Lemma self_loop fuel : forall (s : nodes K) t n, dget s t = Some n -> parent n = Some t -> children n = [t] ->
  snd (update_metrics fuel (Some t) s) = Err OutOfFuel.
Proof.
  induction fuel as [|fuel IH]; intros s t n Hn Hp Hc; cbn [update_metrics]; [reflexivity|].
  rewrite Hn, Hc. cbn [child_metrics]. rewrite Hn. cbn [bind fst snd]. rewrite Hp.
  eapply IH; [apply dget_dset_same|exact Hp|exact Hc].
Qed.
End Self.

(** * Building histories *)
Section Build.
Context {K : Type} {E : Teq K} {O : TeqOk K}.
Implicit Type h : list (adding K).
Lemma valid_nil k : valid k (@nil (adding K)).
Proof. split; [split; constructor|]. intros pre a post H; now destruct pre. Qed.
Lemma valid_add k h t b base : valid k h -> ~ added h t -> base <> Some t -> storable k b ->
  match base with None => True | Some x => is_head h x end -> valid k (h ++ [(t, b, base)]).
Proof.
  intros [[N F] V] Hn Hb Sb Hx. split; [split|].
  - rewrite map_app. apply NoDup_app_intro; [exact N|repeat constructor; intros []|].
    intros x H1 [H2|[]]; cbn in H2; subst. contradiction.
  - apply Forall_app; split; [exact F|]. constructor; [split; auto|constructor].
  - intros pre a post He. destruct post as [|y post _] using rev_ind.
    + apply app_inj_tail in He as [-> <-]. exact Hx.
    + rewrite app_comm_cons, app_assoc in He. apply app_inj_tail in He as [-> _]. now apply (V pre a post).
Qed.
Lemma head_last h t b base : is_head (h ++ [(t, b, base)]) t.
Proof. exists h, b, base, []; split; [reflexivity|intros []]. Qed.
End Build.

(** * dicts and MemoryTree *)
Section Dict.
Context {K : Type} {E : Teq K} {O : TeqOk K}.
Variable re_w : Z -> bool.
Variable tk : tkind.
Notation D := (dict_store K).
Notation M := (memory_tree K).
Notation after h := (run re_w tk D D M v_empty h).

Theorem stored_once_dict h : tk <> KLine -> fresh tk h ->
  (forall t, dmem (heads (after h)) t = true <-> is_head h t) /\
  (forall t, dmem (diffs (after h)) t = true <-> added h t /\ ~ is_head h t) /\
  (forall t b base, In (t, b, base) h -> is_head h t -> dget (heads (after h)) t = Some b) /\
  NoDup (dkeys (heads (after h))) /\ NoDup (dkeys (diffs (after h))).
Proof.
  intros Hk F. destruct (stored_once re_w tk D D M dict_law dict_law memory_law h Hk F) as [S1 [S2 S3]].
  destruct (hist_ok re_w tk D D M dict_law dict_law memory_law h Hk F) as [s I].
  split; [exact S1|]. split; [exact S2|]. split; [|exact (c_fine _ _ _ _ _ _ _ _ _ _ _ _ (h_core _ _ _ _ _ _ _ _ _ _ _ I))].
  intros t b base Hin Hh. specialize (S3 t b base Hin Hh). cbn in S3.
  destruct (dget (heads (after h)) t); [congruence|discriminate].
Qed.
Theorem reported_dict h : tk <> KLine -> fresh tk h ->
  (forall t, contains D D M (after h) t = true <-> added h t) /\
  (forall t b base, In (t, b, base) h -> m_base_version (tree (after h)) t = Ok base) /\
  (forall t b base, In (t, b, base) h ->
     exists tokens changes, version_info D D M (after h) t = Ok (Some (base, tokens, changes)) /\
       tokens <= length b /\ (is_head h t -> tokens = length b /\ changes = 0)) /\
  (forall t, ~ added h t -> version_info D D M (after h) t = Ok None).
Proof.
  intros Hk F. destruct (base_reported re_w tk D D M dict_law dict_law memory_law h Hk F) as [B1 B2].
  split; [exact B1|]. split; [exact B2|].
  exact (info_reported re_w tk D D M dict_law dict_law memory_law h (@dget K (list Z) E) (@dget K (list Z) E) Hk F
    eq_refl eq_refl (fun _ _ => eq_refl) (fun _ _ => eq_refl)).
Qed.
Lemma memory_tree_ok h : tk <> KLine -> fresh tk h -> tree_ok (tree (after h)).
Proof.
  intros Hk F. destruct (hist_ok re_w tk D D M dict_law dict_law memory_law h Hk F) as [s I].
  destruct (c_rep _ _ _ _ _ _ _ _ _ _ _ _ (h_core _ _ _ _ _ _ _ _ _ _ _ I)) as [-> T]. exact T.
Qed.
Theorem tree_exact_memory h : tk <> KLine -> fresh tk h -> tree_exact (tree (after h)).
Proof. intros Hk F. apply (tree_ok_exact (tree (after h))). now apply memory_tree_ok. Qed.
Theorem split_memory h t n : tk <> KLine -> fresh tk h -> dget (tree (after h)) t = Some n ->
  exists split path n', m_get_split (tree (after h)) t = Ok (split, path) /\
    down (tree (after h)) t path /\ last path t = split /\
    dget (tree (after h)) split = Some n' /\
    length path + height n' = height n + 1 /\ height n' <= length path <= height n' + 1.
Proof. intros Hk F Hn. apply (get_split_ok (tree (after h)) t n (memory_tree_ok h Hk F) Hn). Qed.
Theorem rejected_memory h t b x : tk <> KLine -> fresh tk (h ++ [(t, b, Some x)]) ->
  (is_head h x -> add_result re_w tk D D M (after h) (t, b, Some x) = Ok tt) /\
  (~ is_head h x -> add_result re_w tk D D M (after h) (t, b, Some x) = Err KeyError).
Proof.
  intros Hk F. destruct (fresh_snoc _ _ _ F) as [F' [Hna [Hb Sb]]].
  destruct (hist_ok re_w tk D D M dict_law dict_law memory_law h Hk F') as [s I].
  destruct (results re_w tk D D M dict_law dict_law memory_law h (t, b, Some x) Hk F) as [R1 R2].
  split; [exact R1|]. intros Hx.
  pose proof (h_core _ _ _ _ _ _ _ _ _ _ _ I) as C. pose proof (h_tidy _ _ _ _ _ _ _ _ _ _ _ I) as T.
  destruct (add_rejected re_w tk D D M dict_law dict_law memory_law (V_of h) (after h) s t b x C T)
    as [v1 [v2 [e [Ha [_ [C2 [_ [He1 He2]]]]]]]].
  { exact (proj2 (V_of_none h t) Hna). } { exact Sb. } { cbn in Hb; congruence. }
  { destruct (view dict_law (heads (after h)) x) eqn:Hv; [|reflexivity]. exfalso; apply Hx.
    eapply heads_view; [exact I|]. congruence. }
  unfold add_result. rewrite Ha; cbn [snd]. f_equal.
  destruct (V_of h x) eqn:Hvx; [apply He1; discriminate|].
  specialize (He2 eq_refl).
  destruct (c_rep _ _ _ _ _ _ _ _ _ _ _ _ C2) as [R2' _].
  cbn [tr_get_split memory_tree] in He2. rewrite R2' in He2. unfold m_get_split, m_add in He2; cbn [fst] in He2.
  rewrite dget_dset_other in He2 by (cbn in Hb; congruence).
  rewrite (proj2 (c_dom _ _ _ _ _ _ _ _ _ _ _ _ C x) Hvx) in He2. congruence.
Qed.
Theorem path_bound_memory h t : tk <> KLine -> fresh tk h -> added h t ->
  exists root n path, m_path_to (tree (after h)) t = Ok (Some (root :: path)) /\
    dget (tree (after h)) root = Some n /\ parent n = None /\ length path <= height n - 1.
Proof.
  intros Hk F Ha. destruct (path_bound re_w tk D D M dict_law dict_law memory_law h Hk F) as [s [[R _] [_ P]]].
  rewrite R. destruct (P t Ha) as [r [n [p [H1 [H2 [H3 H4]]]]]]. exists r, n, p.
  cbn [tr_path_to memory_tree] in H1. rewrite R in H1. auto.
Qed.
End Dict.
