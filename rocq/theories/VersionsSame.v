(** Histories of versions under two tokenizers: heads, tree and exceptions are the same (C107). *)
From Coq Require Import ZArith Lia.
From Verif Require Import Base SpecSeq Changesets Serialize SpecSerialize Tokenizers SpecTokenizers TokenizersProofs TokenizersDiff
  Tree SpecTree TreeProofs TreeExact Versions SpecVersions VersionsPatch LinePatch VersionsInv VersionsProofs SpecSame.
Local Open Scope nat_scope.
Local Notation names k st := (Forall2 (fun t x => name k st t = Some x)).

(** * Reading what is stored *)
Section Read.
Variable re_w : Z -> bool.
Variable k : tkind.
Definition piece_ok (i : pitem Z) : Prop := match i with PData b => encodable k (CBytes b) | PSlice _ => True end.
Definition readable (d : list Z) : Prop := exists items, deserialize_changeset d = (items, None) /\ Forall piece_ok items.
Definition real (x : list Z) : Prop := real_contents (CBytes x).

Lemma real_concat ts : Forall real ts <-> real (concat ts).
Proof.
  induction ts as [|t ts IH]; cbn [concat]; [split; constructor|]. unfold real in *. cbn [real_contents] in *. rewrite Forall_app, <- IH.
  split; [intros H; inversion H; auto|intros [A B]; constructor; auto].
Qed.
Lemma Forall_sl {A} (P : A -> Prop) l s : Forall P l -> Forall P (sl l s).
Proof.
  intros H. apply Forall_forall. intros x Hx. rewrite Forall_forall in H. apply H. unfold sl, pyslice in Hx.
  assert (Sk : forall n (m : list A), In x (skipn n m) -> In x m) by (intros n m Hm; rewrite <- (firstn_skipn n m); apply in_or_app; now right).
  destruct (snd s) as [e|]; [|eapply Sk; eauto]. apply (Sk (fst s)). rewrite <- (firstn_skipn (e - fst s) (skipn (fst s) l)). apply in_or_app; now left.
Qed.
Lemma apply_all {A} (P : A -> Prop) (p : list (pitem A)) l : Forall (fun i => match i with PData d => Forall P d | PSlice _ => True end) p -> Forall P l ->
  Forall P (apply p l).
Proof.
  intros F Hl. unfold apply, join_changes. induction F as [|i p Hi _ IH]; cbn; [constructor|]. apply Forall_app; split; [|exact IH].
  destruct i; [exact Hi|now apply Forall_sl].
Qed.
Lemma read_items items : forall st, Forall piece_ok items -> st_ok st -> source_type st = Some SBytes -> ready k st ->
  exists st' pt tp, encode_items re_w k st items = (st', Ok pt) /\ st_ok st' /\ extends st st' /\ source_type st' = Some SBytes /\ ready k st' /\
    Forall2 (item_rel (names k st')) pt tp /\ Forall (fun i => match i with PData ts => Forall real ts | PSlice _ => True end) tp.
Proof.
  induction items as [|i items IH]; intros st F Hst S R; cbn [encode_items].
  - exists st, [], []. repeat split; auto using extends_refl; try apply Hst. exists []; now rewrite app_nil_r.
  - inversion F as [|? ? Hi F']; subst. destruct i as [b|s].
    + destruct (texts_encodable re_w k (CBytes b) Hi) as [ts Ht].
      destruct (encode_ok re_w k st (CBytes b) ts Hst (or_intror S) (proj1 Hi) Ht) as [s1 [toks [E1 [O1 [X1 [S1 [R1 N1]]]]]]].
      rewrite E1. destruct (IH s1 F' O1 S1 R1) as (st' & pt & tp & E' & O' & X' & S' & R' & F1 & F2). rewrite E'.
      exists st', (PData toks :: pt), (PData ts :: tp). split; [reflexivity|]. split; [exact O'|]. split; [eapply extends_trans; eauto|].
      split; [exact S'|]. split; [exact R'|]. split; constructor; auto.
      * cbn. apply (names_extends k s1); auto. congruence.
      * apply real_concat. apply texts_concat in Ht. rewrite Ht. exact (proj1 Hi).
    + destruct (IH st F' Hst S R) as (st' & pt & tp & E' & O' & X' & S' & R' & F1 & F2). rewrite E'.
      exists st', (PSlice s :: pt), (PSlice s :: tp). split; [reflexivity|]. repeat (split; [assumption|]). split; constructor; cbn; auto.
Qed.
(** what [_make_changeset] makes can be stored and read *)
Lemma changeset_readable o m : storable k o -> storable k m ->
  exists items d, make_changeset re_w k o m = Ok items /\ serialize_changeset items = Ok d /\ readable d.
Proof.
  intros So Sm. destruct (texts_encodable re_w k (CBytes o) (proj1 So)) as [tso To]. destruct (texts_encodable re_w k (CBytes m) (proj1 Sm)) as [tsm Tm].
  destruct (make_changeset_ok re_w k o m tso tsm So Sm To Tm) as (items & Hm & [(tp & -> & _ & Sub) (d & Hs & Hd)]).
  exists (map flat tp), d. split; [exact Hm|]. split; [exact Hs|]. exists (trimmed (map flat tp)). split; [exact Hd|].
  unfold trimmed. apply Forall_forall. intros i Hi. apply filter_In in Hi as [Hi _]. apply in_map_iff in Hi as (j & <- & Hj).
  rewrite Forall_forall in Sub. specialize (Sub j Hj). destruct j as [ts|s]; cbn; [|exact I].
  destruct Sub as (x & z & Hx). pose proof (texts_concat _ _ _ _ Tm) as Ct. cbn [raw] in Ct.
  assert (Re : real_contents (CBytes (concat ts))).
  { destruct Sm as [[Em _] _]. rewrite <- Ct, Hx, !concat_app in Em. cbn in *. apply Forall_app in Em as [_ Em]. now apply Forall_app in Em as [Em _]. }
  rewrite Hx in Tm. destruct k.
  - apply (encodable_texts re_w _ _ ts Re). eapply texts_piece; [discriminate|exact Tm].
  - apply (encodable_texts re_w _ _ ts Re). eapply texts_piece; [discriminate|exact Tm].
  - split; [exact Re|exact I].
  - apply (encodable_texts re_w _ _ ts Re). eapply texts_piece; [discriminate|exact Tm].
Qed.
End Read.

Section Same.
Context {K : Type} {E : Teq K} {O : TeqOk K}.
Variable re_w : Z -> bool.
Variables HS DS : store K.
Variable TR : tree_impl K.
Variable HL : store_law HS.
Variable DL : store_law DS.
Notation vstate := (@vstate K HS DS TR).
Notation all_readable k v := (forall t d, view DL (diffs v) t = Some d -> readable k d).
Notation retrieve k := (retrieve_using_path re_w k HS DS TR).

(** the exception of a retrieval, which depends on what is stored where only *)
Definition there (v : vstate) (t : K) : bool := match view DL (diffs v) t with Some _ => true | None => false end.
Definition fetch (v : vstate) (path : list K) : option exn :=
  match path with
  | [] => Some IndexError
  | r :: p => match view HL (heads v) r with None => Some KeyError | Some _ => if forallb (there v) p then None else Some KeyError end
  end.
Lemma loop_reads k (v : vstate) : all_readable k v -> forall path st toks ts, st_ok st -> source_type st = Some SBytes -> ready k st ->
  names k st toks ts -> Forall real ts ->
  if forallb (there v) path then exists b, retrieve_loop re_w k HS DS TR v st toks path = Ok b /\ real b
  else retrieve_loop re_w k HS DS TR v st toks path = Err KeyError.
Proof.
  intros A. induction path as [|t path IH]; intros st toks ts Hst S R N F; cbn [forallb retrieve_loop].
  - exists (concat ts). rewrite (decode_names k st toks ts R N). cbn [bind]. rewrite raw_mk. split; [reflexivity|now apply real_concat].
  - rewrite (view_get _ DL). unfold there at 1. destruct (view DL (diffs v) t) as [d|] eqn:Hd; cbn [bind andb]; [|reflexivity].
    destruct (A t d Hd) as (items & Hi & Fi). rewrite Hi.
    destruct (read_items re_w k items st Fi Hst S R) as (st' & pt & tp & E' & O' & X' & S' & R' & F1 & F2). rewrite E'. cbn [bind].
    apply (IH st' (apply pt toks) (apply tp ts)); auto.
    + apply apply_rel; [exact F1|]. apply (names_extends k st); auto. congruence.
    + now apply apply_all.
Qed.
Lemma retrieve_reads k (v : vstate) path : all_readable k v -> (forall t b, view HL (heads v) t = Some b -> storable k b) ->
  match fetch v path with None => exists b, retrieve k v path = Ok b /\ real b | Some e => retrieve k v path = Err e end.
Proof.
  intros A Hh. destruct path as [|r p]; [reflexivity|]. cbn [fetch retrieve_using_path]. rewrite (view_get _ HL).
  destruct (view HL (heads v) r) as [b|] eqn:Hv; [|reflexivity]. cbn [bind]. destruct (Hh _ _ Hv) as [Sb _].
  destruct (texts_encodable re_w k (CBytes b) Sb) as [ts Ht].
  destruct (encode_ok re_w k new_tokenizer (CBytes b) ts new_ok (or_introl eq_refl) (proj1 Sb) Ht) as [s1 [toks [E1 [O1 [X1 [S1 [R1 N1]]]]]]].
  rewrite E1. cbn [bind]. assert (Fr : Forall real ts) by (apply real_concat; apply texts_concat in Ht; rewrite Ht; exact (proj1 Sb)).
  pose proof (loop_reads k v A p s1 toks ts O1 S1 R1 N1 Fr) as L. now destruct (forallb (there v) p).
Qed.

(** * Two tokenizers *)
Variables k1 k2 : tkind.
Record sim (v w : vstate) : Prop := {
  sm_heads : heads v = heads w;
  sm_tree : tree v = tree w;
  sm_diffs : forall t, view DL (diffs v) t = None <-> view DL (diffs w) t = None;
  sm_fine : fine HL (heads v);
  sm_read1 : all_readable k1 v;
  sm_read2 : all_readable k2 w;
  sm_ok : forall t b, view HL (heads v) t = Some b -> storable k1 b /\ storable k2 b
}.
Definition simr {A B} (R : A -> B -> Prop) (x : list vstate * (vstate * res A)) (y : list vstate * (vstate * res B)) : Prop :=
  Forall2 sim (fst x) (fst y) /\ sim (fst (snd x)) (fst (snd y)) /\
  match snd (snd x), snd (snd y) with Ok a, Ok b => R a b | Err e, Err e' => e = e' | _, _ => False end.

Lemma sim_there v w : sim v w -> forall t, there v t = there w t.
Proof. intros S t. unfold there. pose proof (sm_diffs _ _ S t). destruct (view DL (diffs v) t), (view DL (diffs w) t); intuition congruence. Qed.
Lemma sim_fetch v w p : sim v w -> fetch v p = fetch w p.
Proof.
  intros S. destruct p as [|r p]; [reflexivity|]. cbn [fetch]. rewrite (sm_heads _ _ S). destruct (view HL (heads w) r); [|reflexivity].
  assert (H : forallb (there v) p = forallb (there w) p) by (induction p as [|t p IH]; [reflexivity|]; cbn [forallb]; now rewrite IH, (sim_there v w S)).
  now rewrite H.
Qed.
Lemma sim_retrieve v w p : sim v w ->
  (exists b1 b2, retrieve k1 v p = Ok b1 /\ retrieve k2 w p = Ok b2 /\ real b1 /\ real b2) \/
  (exists e, retrieve k1 v p = Err e /\ retrieve k2 w p = Err e).
Proof.
  intros S. pose proof (retrieve_reads k1 v p (sm_read1 _ _ S) (fun t b H => proj1 (sm_ok _ _ S t b H))) as H1.
  assert (Sw : forall t b, view HL (heads w) t = Some b -> storable k2 b) by (intros t b; rewrite <- (sm_heads _ _ S); apply (sm_ok _ _ S)).
  pose proof (retrieve_reads k2 w p (sm_read2 _ _ S) Sw) as H2. rewrite (sim_fetch v w p S) in H1. destruct (fetch w p) as [e|].
  - right. eauto.
  - destruct H1 as (b1 & H1 & R1). destruct H2 as (b2 & H2 & R2). left. eauto 6.
Qed.
Lemma sim_bind {A B A' B'} (R : A -> A' -> Prop) (Q : B -> B' -> Prop) m m' (f : A -> vm HS DS TR B) (f' : A' -> vm HS DS TR B') v w :
  simr R (m v) (m' w) -> (forall a a' v' w', m v = (fst (m v), (v', Ok a)) -> m' w = (fst (m' w), (w', Ok a')) -> R a a' -> sim v' w' -> simr Q (f a v') (f' a' w')) ->
  simr Q (vbind HS DS TR m f v) (vbind HS DS TR m' f' w).
Proof.
  unfold vbind. destruct (m v) as [t1 [v1 [a|e]]], (m' w) as [t2 [v2 [a'|e']]]; intros (H1 & H2 & H3) K0; cbn [fst snd] in *; try contradiction.
  - specialize (K0 a a' v1 v2 eq_refl eq_refl H3 H2). destruct (f a v1) as [t1' r1], (f' a' v2) as [t2' r2]. destruct K0 as (K1 & K2 & K3).
    split; [now apply Forall2_app|]. split; assumption.
  - subst e'. split; [exact H1|]. split; [exact H2|reflexivity].
Qed.
Lemma sim_look {A B} (R : A -> B -> Prop) f g v w : sim v w ->
  match f v, g w with Ok a, Ok b => R a b | Err e, Err e' => e = e' | _, _ => False end -> simr R (look HS DS TR f v) (look HS DS TR g w).
Proof. intros S H. split; [constructor|]. split; [exact S|exact H]. Qed.
Lemma sim_ret {A B} (R : A -> B -> Prop) a b v w : sim v w -> R a b -> simr R (vret HS DS TR a v) (vret HS DS TR b w).
Proof. intros S H. split; [constructor|]. split; [exact S|exact H]. Qed.

Lemma sim_set_head v w tag b : sim v w -> storable k1 b -> storable k2 b -> simr eq (set_head HS DS TR tag b v) (set_head HS DS TR tag b w).
Proof.
  intros S B1 B2. assert (S' : sim (mkV (s_set HS tag b (heads v)) (diffs v) (tree v)) (mkV (s_set HS tag b (heads w)) (diffs w) (tree w))).
  { destruct S as [H1 H2 H3 H4 H5 H6 H7]. split; cbn; auto; try congruence.
    - now apply fine_set.
    - intros t c. rewrite (view_set _ HL). destruct (teq tag t); [intros [= <-]; auto|apply H7]. }
  unfold set_head. split; [constructor; [exact S'|constructor]|]. split; [exact S'|reflexivity].
Qed.
Lemma sim_del_head v w tag : sim v w -> view HL (heads v) tag <> None -> simr eq (del_head HS DS TR tag v) (del_head HS DS TR tag w).
Proof.
  intros S Hv. destruct (view_del _ HL (heads v) tag (sm_fine _ _ S) Hv) as (h' & Hd & Hf & Hw).
  assert (S' : sim (mkV h' (diffs v) (tree v)) (mkV h' (diffs w) (tree w))).
  { destruct S as [H1 H2 H3 H4 H5 H6 H7]. split; cbn; auto. intros t c. rewrite Hw. destruct (teq tag t); [discriminate|apply H7]. }
  unfold del_head. rewrite <- (sm_heads _ _ S), Hd. split; [constructor; [exact S'|constructor]|]. split; [exact S'|reflexivity].
Qed.
Lemma sim_set_diff v w tag d1 d2 : sim v w -> readable k1 d1 -> readable k2 d2 -> simr eq (set_diff HS DS TR tag d1 v) (set_diff HS DS TR tag d2 w).
Proof.
  intros S R1 R2. assert (S' : sim (mkV (heads v) (s_set DS tag d1 (diffs v)) (tree v)) (mkV (heads w) (s_set DS tag d2 (diffs w)) (tree w))).
  { destruct S as [H1 H2 H3 H4 H5 H6 H7]. split; cbn; auto; intros t; rewrite !(view_set _ DL); destruct (teq tag t); eauto.
    - split; discriminate.
    - intros d Hd. injection Hd as <-. exact R1.
    - intros d Hd. injection Hd as <-. exact R2. }
  unfold set_diff. split; [constructor; [exact S'|constructor]|]. split; [exact S'|reflexivity].
Qed.
Lemma sim_on_tree v w f : sim v w -> simr eq (on_tree HS DS TR f v) (on_tree HS DS TR f w).
Proof.
  intros S. unfold on_tree. rewrite <- (sm_tree _ _ S). destruct (f (tree v)) as [t r].
  assert (S' : sim (mkV (heads v) (diffs v) t) (mkV (heads w) (diffs w) t)) by (destruct S; split; cbn; auto).
  split; [constructor; [exact S'|constructor]|]. split; [exact S'|]. cbn. destruct r; reflexivity.
Qed.
(** a changeset that can be stored *)
Definition stores k (cs : list (pitem Z)) : Prop := exists d, serialize_changeset cs = Ok d /\ readable k d.
Lemma sim_add_edge v w q c cs1 cs2 : sim v w -> stores k1 cs1 -> stores k2 cs2 ->
  simr eq (add_edge HS DS TR q c cs1 v) (add_edge HS DS TR q c cs2 w).
Proof.
  intros S (d1 & D1 & R1) (d2 & D2 & R2). unfold add_edge.
  apply (sim_bind (fun a b => readable k1 a /\ readable k2 b)); [apply sim_look; [exact S|rewrite D1, D2; auto]|].
  intros a b v1 w1 _ _ [Ra Rb] S1. apply (sim_bind eq); [now apply sim_set_diff|]. intros _ _ v2 w2 _ _ _ S2.
  apply (sim_bind eq); [now apply sim_on_tree|]. intros _ _ v3 w3 _ _ _ S3.
  apply (sim_bind (fun x y : bool => x = y /\ x = s_mem HS (heads v3) c)); [apply sim_look; [exact S3|rewrite (sm_heads _ _ S3); auto]|].
  intros x y v4 w4 E1 _ [<- Hx] S4. injection E1 as E1 _. subst v4. rewrite (view_mem _ HL) in Hx.
  destruct x; [|now apply sim_ret]. apply sim_del_head; [exact S4|]. destruct (view HL (heads v3) c); [discriminate|discriminate Hx].
Qed.
Lemma sim_changeset v w o1 o2 m1 m2 : sim v w -> storable k1 o1 -> storable k1 m1 -> storable k2 o2 -> storable k2 m2 ->
  simr (fun a b => stores k1 a /\ stores k2 b) (look HS DS TR (fun _ => make_changeset re_w k1 o1 m1) v) (look HS DS TR (fun _ => make_changeset re_w k2 o2 m2) w).
Proof.
  intros S A1 A2 B1 B2. apply sim_look; [exact S|]. destruct (changeset_readable re_w k1 o1 m1 A1 A2) as (i1 & d1 & -> & D1 & R1).
  destruct (changeset_readable re_w k2 o2 m2 B1 B2) as (i2 & d2 & -> & D2 & R2). split; [exists d1|exists d2]; auto.
Qed.
(** the state in which an add looks for the split *)
Definition begun (tag : K) (b : list Z) (base : option K) (v : vstate) : vstate :=
  mkV (s_set HS tag b (heads v)) (diffs v) (fst (tr_add TR tag base (tree v))).
Lemma sim_add v w tag b base : sim v w -> storable k1 b -> storable k2 b ->
  (forall x p c1, base = Some x -> tr_get_split TR (fst (tr_add TR tag base (tree v))) x = Ok (last p x, p) -> retrieve k1 (begun tag b base v) p = Ok c1 -> storable k1 c1) ->
  (forall x p c2, base = Some x -> tr_get_split TR (fst (tr_add TR tag base (tree v))) x = Ok (last p x, p) -> retrieve k2 (begun tag b base w) p = Ok c2 -> storable k2 c2) ->
  (forall x sp, tr_get_split TR (fst (tr_add TR tag base (tree v))) x = Ok sp -> fst sp = last (snd sp) x) ->
  simr eq (add re_w k1 HS DS TR tag b base v) (add re_w k2 HS DS TR tag b base w).
Proof.
  intros S B1 B2 C1 C2 Sp. unfold add. apply (sim_bind eq); [now apply sim_set_head|]. intros [] [] v1 w1 Ev Ew _ S1.
  injection Ev as <-. injection Ew as <-. apply (sim_bind eq); [now apply sim_on_tree|]. intros [] [] v2 w2 Ev Ew _ S2.
  assert (v2 = begun tag b base v) as ->.
  { unfold on_tree in Ev. cbn [tree heads diffs] in Ev. unfold begun. destruct (tr_add TR tag base (tree v)). now injection Ev as <- _. }
  assert (w2 = begun tag b base w) as ->.
  { unfold on_tree in Ew. cbn [tree heads diffs] in Ew. unfold begun. destruct (tr_add TR tag base (tree w)). now injection Ew as <- _. }
  destruct base as [x|]; [|now apply sim_ret].
  apply (sim_bind (fun a a' => a = a' /\ tr_get_split TR (fst (tr_add TR tag (Some x) (tree v))) x = Ok a)).
  { apply sim_look; [exact S2|]. cbn [tree begun]. rewrite <- (sm_tree _ _ S). destruct (tr_get_split TR _ x); auto. }
  intros sp sp' v3 w3 Ev' Ew' [<- Hsp] S3. injection Ev' as Ev' _. injection Ew' as Ew' _. subst v3 w3.
  pose proof (Sp x sp Hsp) as Hl. destruct sp as [sp p]. cbn [fst snd] in *. subst sp.
  apply (sim_bind eq).
  { destruct (teq (last p x) x); [now apply sim_ret|].
    apply (sim_bind (fun c1 c2 => storable k1 c1 /\ storable k2 c2)).
    { apply sim_look; [exact S2|]. destruct (sim_retrieve _ _ p S2) as [(c1 & c2 & H1 & H2 & _)|(e & H1 & H2)]; rewrite H1, H2; [|reflexivity].
      split; [eapply C1; eauto|eapply C2; eauto]. }
    intros c1 c2 v4 w4 _ _ [H1 H2] S4. eapply sim_bind; [apply (sim_changeset v4 w4 b b c1 c2); auto|].
    intros cs1 cs2 v5 w5 _ _ [T1 T2] S5. apply (sim_bind eq); [now apply sim_add_edge|]. intros _ _ v6 w6 _ _ _ S6. now apply sim_on_tree. }
  intros _ _ v4 w4 _ _ _ S4. apply (sim_bind (fun c1 c2 => c1 = c2 /\ storable k1 c1 /\ storable k2 c2)).
  { apply sim_look; [exact S4|]. rewrite <- (sm_heads _ _ S4), (view_get _ HL). destruct (view HL (heads v4) x) as [c|] eqn:Hc; [|reflexivity].
    split; [reflexivity|]. exact (sm_ok _ _ S4 x c Hc). }
  intros c1 c2 v5 w5 _ _ (<- & H1 & H2) S5. eapply sim_bind; [apply (sim_changeset v5 w5 b b c1 c1); auto|].
  intros cs1 cs2 v6 w6 _ _ [T1 T2] S6. now apply sim_add_edge.
Qed.
End Same.

(** * Histories *)
Section Histories.
Lemma nodup_front {A} (a b : list A) : NoDup (a ++ b) -> NoDup a.
Proof. induction a as [|x a IH]; intros N; [constructor|]. inversion N as [|? ? H N']; subst. constructor; [intros K; apply H, in_or_app; now left|auto]. Qed.
Context {K : Type} {E : Teq K} {O : TeqOk K}.
Lemma down_up_all s (t : K) p : down s t p -> forall l, up s t (t :: l) -> up s (last p t) (rev p ++ l).
Proof.
  induction 1 as [t H|t c p [n [Hn Hp]] H IH]; intros l Hl; [exact Hl|].
  destruct (down_cons _ _ _ H) as [q ->]. cbn [rev]. rewrite <- app_assoc. cbn [app].
  replace (last (t :: c :: q) t) with (last (c :: q) c) by (rewrite last_cons; apply last_irrel).
  rewrite <- app_assoc. cbn [app]. specialize (IH (t :: l)). cbn [rev] in IH. rewrite <- app_assoc in IH. apply IH. eapply up_step; eauto.
Qed.
Lemma down_before s tag base (t : K) p : dget s tag = None -> tree_ok s -> down (fst (m_add tag base s)) t p -> t <> tag -> down s t p.
Proof.
  intros Ht T. destruct (add_ok s tag base T Ht) as [_ [G _]]. induction 1 as [t H|t c p [n [Hn Hp]] H IH]; intros Hne.
  - apply down_one. rewrite G in H. destruct (teq_spec tag t); [congruence|exact H].
  - rewrite G in Hn. destruct (teq_spec tag c) as [->|Hc]; [injection Hn as <-; discriminate|]. apply (down_step _ t c p); [exists n; auto|]. apply IH. congruence.
Qed.

Variable re_w : Z -> bool.
Variables HS DS : store K.
Variable TR : tree_impl K.
Variable HL : store_law HS.
Variable DL : store_law DS.
Variable TL : tree_law TR.
Context {TX : Exact TL}.
Notation run k := (run re_w k HS DS TR v_empty).
Notation get k := (get re_w k HS DS TR).
Notation sim k := (sim HS DS TR HL DL k KNull).
Notation retrieve k := (retrieve_using_path re_w k HS DS TR).

Lemma fresh_null k (h : list (adding K)) : fresh k h -> fresh KNull h.
Proof. intros [N F]; split; [exact N|]. eapply Forall_impl; [|exact F]. intros a [Hb [[He _] Hl]]. split; [exact Hb|]. split; [split; [exact He|exact I]|exact Hl]. Qed.
Lemma retrieve_loop_diffs k v v' : diffs v = diffs v' -> forall p st toks, retrieve_loop re_w k HS DS TR v st toks p = retrieve_loop re_w k HS DS TR v' st toks p.
Proof.
  intros H. induction p as [|t p IH]; intros st toks; cbn [retrieve_loop]; [reflexivity|]. rewrite H. destruct (s_get DS (diffs v') t) as [b|e]; [|reflexivity]. cbn [bind].
  destruct (deserialize_changeset b) as [items stop]. destruct (encode_items re_w k st items) as [st' [pt|]]; [|reflexivity]. cbn [bind]. destruct stop; [reflexivity|apply IH].
Qed.
(** what an add retrieves is what [get] gives before it *)
Lemma link k h v w s tag b base x p c : hist_inv re_w KNull HS DS TR HL DL TL h w s -> heads v = heads w -> tree v = tree w ->
  ~ added h tag -> x <> tag ->
  tr_get_split TR (fst (tr_add TR tag base (tree v))) x = Ok (last p x, p) -> retrieve k (begun HS DS TR tag b base v) p = Ok c ->
  (get k v (last p x) = Ok (Some c) /\ retrieve k v p = Ok c) /\ added h (last p x).
Proof.
  intros I Hh Ht Ha Hx Hs Hr. rewrite Ht in Hs. pose proof (c_rep _ _ _ _ _ _ _ _ _ _ _ _ (h_core _ _ _ _ _ _ _ _ _ _ _ I)) as R.
  assert (Hd : dget s tag = None) by (now apply (known_added _ _ _ _ _ _ _ _ h w s tag I)).
  destruct (rep_add _ TL _ _ tag base R Hd) as (t' & Ea & R'). rewrite Ea in Hs. cbn [fst] in Hs.
  destruct (dget (fst (m_add tag base s)) x) as [nx|] eqn:Hnx; [|destruct (rep_nosplit _ TL _ _ x R' Hnx) as [e He]; congruence].
  destruct (rep_way _ TL _ _ x nx R' Hnx) as (p' & Hs' & Hw). rewrite Hs' in Hs. injection Hs as _ ->.
  pose proof (down_before s tag base x p Hd (rep_ok _ TL _ _ R) (split_way_down _ _ _ _ Hw) Hx) as Dn.
  destruct (down_cons _ _ _ Dn) as [q Hq]. 
  assert (Hv : view HL (heads w) x <> None).
  { rewrite Hq in Hr. unfold retrieve_using_path, begun in Hr. cbn [heads] in Hr. rewrite (view_get _ HL), (view_set _ HL), Hh in Hr.
    destruct (teq_spec tag x); [congruence|]. destruct (view HL (heads w) x); [discriminate|discriminate Hr]. }
  apply (heads_view _ _ _ _ _ _ _ _ h w s x I) in Hv. pose proof (is_head_added _ _ Hv) as Hax.
  destruct (dget s x) as [n|] eqn:Hn; [|apply (known_added _ _ _ _ _ _ _ _ h w s x I) in Hn; contradiction].
  apply (h_head _ _ _ _ _ _ _ _ _ _ _ I x n Hn) in Hv.
  pose proof (down_up_all s x p Dn [] (up_root _ _ _ Hn Hv)) as Up. rewrite app_nil_r in Up. split.
  - assert (Re : retrieve k v p = Ok c).
    { rewrite <- Hr, Hq. unfold retrieve_using_path, begun. cbn [heads]. rewrite !(view_get _ HL), (view_set _ HL). destruct (teq_spec tag x); [congruence|].
      destruct (view HL (heads v) x) as [l|]; [|reflexivity]. cbn [bind]. destruct (encode re_w k new_tokenizer (CBytes l)) as [st [toks|]]; [|reflexivity]. cbn [bind].
      apply retrieve_loop_diffs. reflexivity. }
    split; [|exact Re]. unfold Versions.get. rewrite Ht, (rep_path _ TL _ s _ _ R Up), rev_involutive. cbn [bind]. rewrite Hq in Re |- *. rewrite Re. reflexivity.
  - pose proof (up_known _ _ _ Up) as Hk. destruct (V_of h (last p x)) as [z|] eqn:Hz.
    + apply V_of_some in Hz as [bs Hin]. now apply In_added in Hin.
    + apply (c_dom _ _ _ _ _ _ _ _ _ _ _ _ (h_core _ _ _ _ _ _ _ _ _ _ _ I)) in Hz. contradiction.
Qed.

(** no version comes back longer than a Python object can be *)
Notation sized k := (sized (fun pre => get k (run k pre))).
Lemma sized_other k h : k <> KLine -> fresh k h -> sized k h.
Proof.
  intros Hk F pre post t b -> G. assert (F' : fresh k pre).
  { destruct F as [N F]. rewrite map_app in N. apply nodup_front in N. apply Forall_app in F as [F _]. split; assumption. }
  destruct (retrieval re_w k HS DS TR HL DL TL pre Hk F') as [R1 R2]. destruct (V_of pre t) as [c|] eqn:Hc.
  - apply V_of_some in Hc as [base Hin]. rewrite (R1 _ _ _ Hin) in G. injection G as <-.
    destruct F' as [_ F']. rewrite Forall_forall in F'. apply (F' _ Hin).
  - apply V_of_none in Hc. rewrite (R2 _ Hc) in G. discriminate.
Qed.
Lemma same_step k h a s : sim k (run k h) (run KNull h) -> hist_inv re_w KNull HS DS TR HL DL TL h (run KNull h) s ->
  fresh k (h ++ [a]) -> sized k h -> simr HS DS TR HL DL k KNull eq (add re_w k HS DS TR (tag_of a) (bytes_of a) (base_of a) (run k h))
    (add re_w KNull HS DS TR (tag_of a) (bytes_of a) (base_of a) (run KNull h)).
Proof.
  intros S I F Z. destruct (fresh_snoc _ _ _ F) as [F' [Hna [Hb Sb]]].
  pose proof (fresh_snoc _ _ _ (fresh_null k _ F)) as (G' & _ & _ & Sb2).
  assert (Ret : forall k' h' p x c, k' <> KLine -> fresh k' h' -> get k' (run k' h') (last p x) = Ok (Some c) -> added h' (last p x) -> storable k' c).
  { intros k' h' p x c Hk Ff Hg Hadd. destruct (retrieval re_w k' HS DS TR HL DL TL h' Hk Ff) as [R1 _]. 
    destruct (added_In _ _ Hadd) as (b0 & base0 & Hin). rewrite (R1 _ _ _ Hin) in Hg. injection Hg as <-. destruct Ff as [_ Ff]. rewrite Forall_forall in Ff. apply (Ff _ Hin). }
  pose proof (c_rep _ _ _ _ _ _ _ _ _ _ _ _ (h_core _ _ _ _ _ _ _ _ _ _ _ I)) as R.
  apply sim_add; auto.
  - intros x p c1 Hx Hs Hr. assert (Hne : x <> tag_of a) by congruence.
    destruct (link k h (run k h) (run KNull h) s (tag_of a) (bytes_of a) (base_of a) x p c1 I (sm_heads _ _ _ _ _ _ _ _ _ S) (sm_tree _ _ _ _ _ _ _ _ _ S) Hna Hne Hs Hr) as [[Hg Hret] Hadd].
    destruct (match k with KLine => true | _ => false end) eqn:Hk; [|eapply (Ret k h p x); eauto; intros ->; discriminate].
    assert (k = KLine) as -> by (destruct k; congruence).
    split; [|eapply (Z h []); [now rewrite app_nil_r|exact Hg]]. split; [|exact Logic.I].
    pose proof (retrieve_reads re_w HS DS TR HL DL KLine (run KLine h) p (sm_read1 _ _ _ _ _ _ _ _ _ S) (fun t b0 H => proj1 (sm_ok _ _ _ _ _ _ _ _ _ S t b0 H))) as Rd.
    destruct (fetch HS DS TR HL DL (run KLine h) p); [congruence|]. destruct Rd as (b' & Hb' & Rb). rewrite Hret in Hb'. injection Hb' as <-. exact Rb.
  - intros x p c2 Hx Hs Hr. assert (Hne : x <> tag_of a) by congruence. rewrite (sm_tree _ _ _ _ _ _ _ _ _ S) in Hs.
    destruct (link KNull h (run KNull h) (run KNull h) s (tag_of a) (bytes_of a) (base_of a) x p c2 I eq_refl eq_refl Hna Hne Hs Hr) as [[Hg _] Hadd].
    eapply (Ret KNull h p x); eauto. discriminate.
  - intros x sp Hs. rewrite (sm_tree _ _ _ _ _ _ _ _ _ S) in Hs.
    assert (Hd : dget s (tag_of a) = None) by (now apply (known_added _ _ _ _ _ _ _ _ h _ s _ I)).
    destruct (rep_add _ TL _ _ (tag_of a) (base_of a) R Hd) as (t' & Ea & R'). rewrite Ea in Hs. cbn [fst] in Hs.
    destruct (dget (fst (m_add (tag_of a) (base_of a) s)) x) as [nx|] eqn:Hnx; [|destruct (rep_nosplit _ TL _ _ x R' Hnx) as [e He]; congruence].
    destruct (rep_way _ TL _ _ x nx R' Hnx) as (p' & Hs' & _). rewrite Hs' in Hs. injection Hs as <-. reflexivity.
Qed.
Notation add_result k := (add_result re_w k HS DS TR).
Notation add_trace k := (add_trace re_w k HS DS TR).
Lemma sized_front k h a : sized k (h ++ a) -> sized k h.
Proof. intros Z pre post t b -> G. eapply (Z pre (post ++ a)); [now rewrite app_assoc|exact G]. Qed.
Theorem same_history k h : fresh k h -> sized k h -> sim k (run k h) (run KNull h).
Proof.
  induction h as [|a h IH] using rev_ind; intros F Z.
  - constructor; try reflexivity.
    + apply (fine_empty _ HL).
    + intros t d. cbn. rewrite (view_empty _ DL). discriminate.
    + intros t d. cbn. rewrite (view_empty _ DL). discriminate.
    + intros t b. cbn. rewrite (view_empty _ HL). discriminate.
  - destruct (fresh_snoc _ _ _ F) as [F' _]. apply sized_front in Z. rewrite !run_snoc.
    destruct (hist_ok re_w KNull HS DS TR HL DL TL h) as [s I]; [discriminate|now apply (fresh_null k)|].
    pose proof (proj1 (proj2 (same_step k h a s (IH F' Z) I F Z))) as S. unfold add_state. destruct a as [[t b] base]. exact S.
Qed.
Theorem same_add k h a : fresh k (h ++ [a]) -> sized k h ->
  add_result k (run k h) a = add_result KNull (run KNull h) a /\
  Forall2 (fun v w => heads v = heads w /\ tree v = tree w /\ forall t, s_mem DS (diffs v) t = s_mem DS (diffs w) t)
    (add_trace k (run k h) a) (add_trace KNull (run KNull h) a).
Proof.
  intros F Z. destruct (fresh_snoc _ _ _ F) as [F' _].
  destruct (hist_ok re_w KNull HS DS TR HL DL TL h) as [s I]; [discriminate|now apply (fresh_null k)|].
  destruct (same_step k h a s (same_history k h F' Z) I F Z) as (T & _ & R). destruct a as [[tg bb] bs]. cbn [tag_of bytes_of base_of fst snd] in T, R. split.
  - unfold Versions.add_result. destruct (snd (snd (add re_w k HS DS TR tg bb bs (run k h)))) as [?|?],
      (snd (snd (add re_w KNull HS DS TR tg bb bs (run KNull h)))) as [?|?]; try contradiction; congruence.
  - unfold Versions.add_trace. clear R. induction T as [|v w vs ws S T IH]; constructor; auto. split; [apply S|]. split; [apply S|]. intros t.
    rewrite !(view_mem _ DL). pose proof (sm_diffs _ _ _ _ _ _ _ _ _ S t). destruct (view DL (diffs v) t), (view DL (diffs w) t); intuition congruence.
Qed.
Theorem same_state k h : fresh k h -> sized k h ->
  heads (run k h) = heads (run KNull h) /\ tree (run k h) = tree (run KNull h) /\
  forall t, s_mem DS (diffs (run k h)) t = s_mem DS (diffs (run KNull h)) t.
Proof.
  intros F Z. pose proof (same_history k h F Z) as S. split; [apply S|]. split; [apply S|]. intros t.
  rewrite !(view_mem _ DL). pose proof (sm_diffs _ _ _ _ _ _ _ _ _ S t). destruct (view DL (diffs (run k h)) t), (view DL (diffs (run KNull h)) t); intuition congruence.
Qed.
(** retrievals never raise, and heads come back as they were added *)
Theorem same_get k h : fresh k h -> sized k h ->
  (forall t, added h t -> exists b, get k (run k h) t = Ok (Some b) /\ real b) /\
  (forall t b base, In (t, b, base) h -> is_head h t -> get k (run k h) t = Ok (Some b)) /\
  (forall t, ~ added h t -> get k (run k h) t = Ok None).
Proof.
  intros F Z. pose proof (same_history k h F Z) as S. pose proof (fresh_null k h F) as F0.
  destruct (retrieval re_w KNull HS DS TR HL DL TL h) as [R1 R2]; [discriminate|exact F0|].
  assert (G : forall t, get k (run k h) t = let* path := tr_path_to TR (tree (run KNull h)) t in
    match path with Some (r :: p) => let* b := retrieve k (run k h) (r :: p) in Ok (Some b) | _ => Ok None end).
  { intros t. unfold Versions.get. rewrite (sm_tree _ _ _ _ _ _ _ _ _ S). destruct (tr_path_to TR (tree (run KNull h)) t) as [[[|r p]|]|]; reflexivity. }
  split; [|split].
  - intros t Ha. destruct (added_In _ _ Ha) as (b & base & Hin). specialize (R1 _ _ _ Hin). rewrite G. unfold Versions.get in R1.
    destruct (tr_path_to TR (tree (run KNull h)) t) as [[[|r p]|]|]; try discriminate. cbn [bind] in *.
    destruct (sim_retrieve re_w HS DS TR HL DL k KNull _ _ (r :: p) S) as [(b1 & b2 & H1 & H2 & Rl & _)|(e & H1 & H2)].
    + rewrite H1. cbn [bind]. eauto.
    + rewrite H2 in R1. discriminate.
  - intros t b base Hin Hh. destruct (hist_ok re_w KNull HS DS TR HL DL TL h) as [s I]; [discriminate|exact F0|].
    destruct (dget s t) as [n|] eqn:Hn; [|apply (known_added _ _ _ _ _ _ _ _ h _ s _ I) in Hn; apply In_added in Hin; contradiction].
    pose proof (proj2 (h_head _ _ _ _ _ _ _ _ _ _ _ I t n Hn) Hh) as Hp.
    rewrite G, (rep_path _ TL _ s _ _ (c_rep _ _ _ _ _ _ _ _ _ _ _ _ (h_core _ _ _ _ _ _ _ _ _ _ _ I)) (up_root _ _ _ Hn Hp)). cbn [rev app bind].
    unfold retrieve_using_path. rewrite (sm_heads _ _ _ _ _ _ _ _ _ S). destruct (stored_once re_w KNull HS DS TR HL DL TL h) as (_ & _ & Hst); [discriminate|exact F0|].
    rewrite (Hst _ _ _ Hin Hh). cbn [bind]. destruct F as [N Fs]. rewrite Forall_forall in Fs. destruct (Fs _ Hin) as [_ [Sb _]]. cbn [bytes_of fst snd] in Sb.
    destruct (texts_encodable re_w k (CBytes b) Sb) as [ts Ht].
    destruct (encode_ok re_w k new_tokenizer (CBytes b) ts new_ok (or_introl eq_refl) (proj1 Sb) Ht) as [s1 [toks [E1 [O1 [X1 [S1 [R1' N1]]]]]]].
    rewrite E1. cbn [bind retrieve_loop]. rewrite (decode_names k s1 toks ts R1' N1). cbn [bind]. rewrite raw_mk. apply texts_concat in Ht. cbn [raw] in Ht. now rewrite Ht.
  - intros t Hn. specialize (R2 _ Hn). rewrite G. unfold Versions.get in R2. destruct (tr_path_to TR (tree (run KNull h)) t) as [[[|r p]|]|]; try discriminate; try reflexivity.
    cbn [bind] in R2. destruct (retrieve KNull (run KNull h) (r :: p)); discriminate.
Qed.

(** the base of the version that was added last comes back as well *)
Lemma vbind_inv {A B} (m : vm HS DS TR A) (f : A -> vm HS DS TR B) v tr v' b : vbind HS DS TR m f v = (tr, (v', Ok b)) ->
  exists t1 v1 a t2, m v = (t1, (v1, Ok a)) /\ f a v1 = (t2, (v', Ok b)).
Proof.
  unfold vbind. destruct (m v) as [t1 [v1 [a|e]]]; [|discriminate]. destruct (f a v1) as [t2 r] eqn:Hf. intros H. injection H as _ ->. eauto 6.
Qed.
Lemma add_edge_inv q c cs v tr v' u : add_edge HS DS TR q c cs v = (tr, (v', Ok u)) -> fine HL (heads v) ->
  exists d, serialize_changeset cs = Ok d /\ view DL (diffs v') c = Some d /\ fine HL (heads v') /\ forall t, t <> c -> view HL (heads v') t = view HL (heads v) t.
Proof.
  intros H Hf. unfold add_edge in H. apply vbind_inv in H as (? & v1 & d & ? & H1 & H). injection H1 as _ -> H1.
  apply vbind_inv in H as (? & v2 & [] & ? & H2 & H). injection H2 as _ <-.
  apply vbind_inv in H as (? & v3 & [] & ? & H3 & H). unfold on_tree in H3. cbn [tree heads diffs] in H3. destruct (tr_change_parent TR c q (tree v1)) as [t r]. injection H3 as _ <- ->.
  apply vbind_inv in H as (? & v4 & m & ? & H4 & H). injection H4 as _ <- <-. cbn [heads] in H. rewrite (view_mem _ HL) in H.
  exists d. split; [exact H1|]. destruct (view HL (heads v1) c) as [bc|] eqn:Hc.
  - destruct (view_del _ HL (heads v1) c Hf) as (h' & Hd & Hf' & Hw); [congruence|]. unfold del_head in H. cbn [heads diffs tree] in H. rewrite Hd in H. injection H as _ <- _.
    cbn [heads diffs]. rewrite (view_set _ DL), teq_refl. split; [reflexivity|]. split; [exact Hf'|]. intros t' Ht. rewrite Hw. destruct (teq_spec c t'); [congruence|reflexivity].
  - injection H as _ <- _. cbn [heads diffs]. rewrite (view_set _ DL), teq_refl. auto.
Qed.
Lemma add_last k tag b x v tr v' u : add re_w k HS DS TR tag b (Some x) v = (tr, (v', Ok u)) -> fine HL (heads v) -> x <> tag ->
  exists bx items d, view HL (heads v) x = Some bx /\ make_changeset re_w k b bx = Ok items /\ serialize_changeset items = Ok d /\ view DL (diffs v') x = Some d.
Proof.
  intros H Hf Hx. unfold add in H. apply vbind_inv in H as (? & v1 & [] & ? & H1 & H). injection H1 as _ <-.
  apply vbind_inv in H as (? & v2 & [] & ? & H2 & H). unfold on_tree in H2. cbn [tree heads diffs] in H2. destruct (tr_add TR tag (Some x) (tree v)) as [t r]. injection H2 as _ <- ->.
  apply vbind_inv in H as (? & v3 & sp & ? & H3 & H). injection H3 as _ <- H3. apply vbind_inv in H as (? & v4 & [] & ? & H4 & H).
  apply vbind_inv in H as (? & v5 & bx & ? & H5 & H). injection H5 as _ <- H5. apply vbind_inv in H as (? & v6 & items & ? & H6 & H). injection H6 as _ <- H6.
  assert (Hv : fine HL (heads v4) /\ view HL (heads v4) x = view HL (heads v) x).
  { assert (H0 : view HL (s_set HS tag b (heads v)) x = view HL (heads v) x) by (rewrite (view_set _ HL); destruct (teq_spec tag x); [congruence|reflexivity]).
    pose proof (fine_set _ HL _ tag b Hf) as Hf1. revert H4; destruct (teq_spec (fst sp) x) as [Hq|Hne]; intros H4; [injection H4 as _ <-; auto|].
    apply vbind_inv in H4 as (? & v7 & c & ? & H7 & H4). injection H7 as _ <- _. apply vbind_inv in H4 as (? & v8 & cs & ? & H8 & H4). injection H8 as _ <- _.
    apply vbind_inv in H4 as (? & v9 & [] & ? & H9 & H4). destruct (add_edge_inv _ _ _ _ _ _ _ H9 Hf1) as (_ & _ & _ & Hf9 & Hv9).
    unfold on_tree in H4. destruct (tr_change_parent TR (fst sp) tag (tree v9)) as [t' r']. injection H4 as _ <- _. cbn [heads] in *. split; [exact Hf9|].
    rewrite Hv9; [exact H0|congruence]. }
  destruct Hv as [Hf4 Hv]. rewrite (view_get _ HL), Hv in H5. destruct (view HL (heads v) x) as [bx'|]; [|discriminate]. injection H5 as ->.
  destruct (add_edge_inv _ _ _ _ _ _ _ H Hf4) as (d & Hd & Hv' & _). exists bx, items, d. auto.
Qed.
Theorem last_base k h tag b x bx basex : fresh k (h ++ [(tag, b, Some x)]) -> sized k h -> is_head h x -> In (x, bx, basex) h ->
  get k (run k (h ++ [(tag, b, Some x)])) x = Ok (Some bx).
Proof.
  intros F Z Hh Hin. destruct (fresh_snoc _ _ _ F) as [F' [Hna [Hb Sb]]]. cbn [tag_of bytes_of base_of fst snd] in *.
  pose proof (same_history k h F' Z) as S. pose proof (fresh_null k _ F) as F0. pose proof (fresh_null k _ F') as F0'.
  destruct (hist_ok re_w KNull HS DS TR HL DL TL h) as [s I]; [discriminate|exact F0'|].
  pose proof (same_step k h _ s S I F Z) as (_ & S1 & _). destruct (same_add k h _ F Z) as [Re _].
  destruct (hist_step re_w KNull HS DS TR HL DL TL h _ s _ I F0) as [(s' & I' & Ch) [Ok0 _]]; [left; discriminate|].
  specialize (Ok0 Hh). rewrite Ok0 in Re. cbn [tag_of bytes_of base_of fst snd] in *.
  destruct Ch as [[Nh _]|(x' & p & [= <-] & _ & _ & Ch)]; [contradiction|].
  assert (Hx : x <> tag) by congruence. assert (Cx : child_of s' x tag) by (apply Ch; left; auto). destruct Cx as (n & Hn & Hp).
  assert (Ht : is_head (h ++ [(tag, b, Some x)]) tag) by (exists h, b, (Some x), []; split; [reflexivity|intros []]).
  assert (Up : up s' x [x; tag]).
  { destruct (dget s' tag) as [nt|] eqn:Hnt.
    - eapply up_step; eauto. eapply up_root; [exact Hnt|]. now apply (h_head _ _ _ _ _ _ _ _ _ _ _ I' tag nt Hnt).
    - apply (known_added _ _ _ _ _ _ _ _ _ _ s' tag I') in Hnt. exfalso. apply Hnt. unfold added. rewrite map_app. apply in_or_app; right; now left. }
  pose proof (rep_path _ TL _ s' _ _ (c_rep _ _ _ _ _ _ _ _ _ _ _ _ (h_core _ _ _ _ _ _ _ _ _ _ _ I')) Up) as Path.
  unfold Versions.get. rewrite (run_snoc re_w k HS DS TR h (tag, b, Some x)). unfold add_state in *. rewrite (sm_tree _ _ _ _ _ _ _ _ _ S1), Path. cbn [rev app bind].
  unfold Versions.add_result in Re. destruct (add re_w k HS DS TR tag b (Some x) (run k h)) as [tr [v' r]] eqn:Ad. cbn [fst snd] in *. subst r.
  destruct (add_last k tag b x _ tr v' tt Ad (sm_fine _ _ _ _ _ _ _ _ _ S) Hx) as (bx' & items & d & Hv & Hm & Hs & Hd).
  destruct (stored_once re_w KNull HS DS TR HL DL TL h) as (_ & _ & Hst); [discriminate|exact F0'|].
  assert (bx' = bx) as ->.
  { specialize (Hst _ _ _ Hin Hh). rewrite <- (sm_heads _ _ _ _ _ _ _ _ _ S), (view_get _ HL), Hv in Hst. congruence. }
  destruct (stored_once re_w KNull HS DS TR HL DL TL _ ltac:(discriminate) F0) as (_ & _ & Hst').
  specialize (Hst' tag b (Some x) ltac:(apply in_or_app; right; now left) Ht). rewrite (run_snoc re_w KNull HS DS TR h (tag, b, Some x)) in Hst'. unfold add_state in Hst'. rewrite <- (sm_heads _ _ _ _ _ _ _ _ _ S1) in Hst'.
  unfold retrieve_using_path. rewrite Hst'. cbn [bind].
  destruct F as [N Fs]. rewrite Forall_forall in Fs. destruct (Fs (x, bx, basex) ltac:(apply in_or_app; now left)) as [_ Sx]. cbn [bytes_of fst snd] in Sx.
  destruct (texts_encodable re_w k (CBytes b) (proj1 Sb)) as [tsb Htb]. destruct (texts_encodable re_w k (CBytes bx) (proj1 Sx)) as [tsx Htx].
  destruct (encode_ok re_w k new_tokenizer (CBytes b) tsb new_ok (or_introl eq_refl) (proj1 (proj1 Sb)) Htb) as [s1 [toks [E1 [O1 [X1 [S1' [R1 N1]]]]]]].
  rewrite E1. cbn [bind retrieve_loop]. rewrite (view_get _ DL), Hd. cbn [bind].
  destruct (make_changeset_ok re_w k b bx tsb tsx Sb Sx Htb Htx) as [items' [Hm' PB]]. assert (items' = items) by congruence; subst items'.
  pose proof PB as [_ [d' [Hs' Hde]]]. assert (d' = d) by congruence; subst d'. rewrite Hde.
  destruct (replay_step re_w k items tsb tsx bx s1 toks PB Sx Htx O1 S1' R1 N1) as [st' [pt [tsc' [E2 [O2 [S2 [R2 [N2 [C2 _]]]]]]]]].
  rewrite E2. cbn [bind]. rewrite (decode_names k st' _ _ R2 N2). cbn [bind]. rewrite raw_mk. now rewrite C2.
Qed.

(** * What is proved for the other tokenizers about heads, trees and exceptions *)
Theorem any_results k h a : fresh k (h ++ [a]) -> sized k h ->
  (match base_of a with None => True | Some x => is_head h x end -> add_result k (run k h) a = Ok tt) /\
  (match base_of a with None => False | Some x => ~ is_head h x end ->
    exists e, add_result k (run k h) a = Err e /\ match base_of a with Some x => added h x -> e = KeyError | None => True end).
Proof. intros F Z. rewrite (proj1 (same_add k h a F Z)). apply (results re_w KNull HS DS TR HL DL TL); [discriminate|exact (fresh_null k _ F)]. Qed.
Theorem any_stored k h : fresh k h -> sized k h ->
  let v := run k h in
  (forall t, s_mem HS (heads v) t = true <-> is_head h t) /\
  (forall t, s_mem DS (diffs v) t = true <-> added h t /\ ~ is_head h t) /\
  (forall t b base, In (t, b, base) h -> is_head h t -> s_get HS (heads v) t = Ok b) /\
  (forall t, contains HS DS TR v t = true <-> added h t) /\
  (forall t b base, In (t, b, base) h -> tr_base TR (tree v) t = Ok base).
Proof.
  intros F Z v. destruct (same_state k h F Z) as (Hh & Ht & Hd). fold v in Hh, Ht, Hd. unfold contains. rewrite Hh, Ht.
  destruct (stored_once re_w KNull HS DS TR HL DL TL h) as (H1 & H2 & H3); [discriminate|exact (fresh_null k _ F)|].
  destruct (base_reported re_w KNull HS DS TR HL DL TL h) as (H4 & H5); [discriminate|exact (fresh_null k _ F)|].
  split; [exact H1|]. split; [intros t; rewrite Hd; apply H2|]. auto.
Qed.
Theorem any_paths k h : fresh k h -> sized k h -> exists s, rep TL (tree (run k h)) s /\ tree_exact s /\
  forall t, added h t -> exists r n p, tr_path_to TR (tree (run k h)) t = Ok (Some (r :: p)) /\
    dget s r = Some n /\ parent n = None /\ length p <= height n - 1.
Proof.
  intros F Z. rewrite (proj1 (proj2 (same_state k h F Z))). apply (path_bound re_w KNull HS DS TR HL DL TL); [discriminate|exact (fresh_null k _ F)].
Qed.

End Histories.

Section Memory.
Context {K : Type} {E : Teq K} {O : TeqOk K}.
Variable re_w : Z -> bool.
Notation D := (dict_store K).
Notation M := (memory_tree K).
Notation run k := (Versions.run re_w k D D M v_empty).
Notation get k := (Versions.get re_w k D D M).
Theorem any_info k (h : list (adding K)) : fresh k h -> sized (fun pre => get k (run k pre)) h ->
  (forall t b base, In (t, b, base) h -> exists tokens changes, version_info D D M (run k h) t = Ok (Some (base, tokens, changes)) /\
     (is_head h t -> tokens = length b /\ changes = 0)) /\
  (forall t, ~ added h t -> version_info D D M (run k h) t = Ok None).
Proof.
  intros F Z. pose proof (same_history re_w D D M dict_law dict_law memory_law k h F Z) as S.
  destruct (any_stored re_w D D M dict_law dict_law memory_law k h F Z) as (H1 & H2 & H3 & H4 & H5).
  assert (N : forall t, dget (diffs (run k h)) t = None <-> ~ (added h t /\ ~ is_head h t)).
  { intros t. rewrite <- H2. cbn. unfold dmem. destruct (dget (diffs (run k h)) t); intuition congruence. }
  split.
  - intros t b base Hin. unfold version_info. cbn [s_dot_get dict_store]. destruct (dget (diffs (run k h)) t) as [d|] eqn:Hd.
    + destruct (sm_read1 _ _ _ _ _ _ _ _ _ S t d Hd) as (items & Hi & _). rewrite Hi. cbn [bind]. rewrite (H5 _ _ _ Hin). cbn [bind].
      do 2 eexists. split; [reflexivity|]. intros Hh. exfalso. assert (X : dget (diffs (run k h)) t = None) by (apply N; tauto). congruence.
    + assert (Hg : dget (heads (run k h)) t = Some b).
      { destruct (s_mem D (heads (run k h)) t) eqn:Hm.
        - apply H1 in Hm. specialize (H3 _ _ _ Hin Hm). cbn in H3. destruct (dget (heads (run k h)) t); [congruence|discriminate].
        - exfalso. apply N in Hd. apply Hd. split; [now apply In_added in Hin|]. rewrite <- H1. congruence. }
      rewrite Hg. cbn [bind]. rewrite (H5 _ _ _ Hin). cbn [bind]. do 2 eexists. split; [reflexivity|]. auto.
  - intros t Hn. unfold version_info. cbn [s_dot_get dict_store]. assert (X : dget (diffs (run k h)) t = None) by (apply N; tauto). rewrite X.
    assert (Y : s_mem D (heads (run k h)) t = false).
    { destruct (s_mem D (heads (run k h)) t) eqn:Hm; [|reflexivity]. apply H1, is_head_added in Hm. contradiction. }
    cbn in Y. unfold dmem in Y. destruct (dget (heads (run k h)) t); [discriminate|reflexivity].
Qed.
End Memory.
