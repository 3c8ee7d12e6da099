(** The invariant of [Versions] objects, for any stores and tree that follow the
    laws stated here. *)
From Coq Require Import ZArith Lia.
From Verif Require Import Base SpecSeq Changesets Serialize SpecSerialize
  Tokenizers SpecTokenizers TokenizersProofs TokenizersDiff Tree SpecTree TreeProofs Versions SpecVersions VersionsPatch LinePatch.

Section Laws.
Context {K : Type} {E : Teq K} {O : TeqOk K}.

Record store_law (S : store K) := {
  view : store_t S -> K -> option (list Z);
  fine : store_t S -> Prop;
  fine_empty : fine (s_empty S);
  fine_set : forall d k b, fine d -> fine (s_set S k b d);
  view_empty : forall k, view (s_empty S) k = None;
  view_get : forall d k, s_get S d k = match view d k with Some b => Ok b | None => Err KeyError end;
  view_set : forall d k b u, view (s_set S k b d) u = if teq k u then Some b else view d u;
  view_del : forall d k, fine d -> view d k <> None ->
    exists d', s_del S k d = (d', Ok tt) /\ fine d' /\ forall u, view d' u = if teq k u then None else view d u;
  view_mem : forall d k, s_mem S d k = match view d k with Some _ => true | None => false end
}.

Definition reparented (s s' : nodes K) (tag r : K) : Prop :=
  dkeys s' = dkeys s /\
  forall u, match dget s u, dget s' u with
            | Some n, Some m => parent m = (if teq tag u then Some r else parent n) /\
                                base m = base n /\ order_id m = order_id n
            | None, None => True
            | _, _ => False
            end.

(** the moves that [add] makes *)
Definition slot_free (s : nodes K) (tag : K) (n0 : node K) (r : K) (nr : node K) : Prop :=
  match parent n0 with
  | None => base nr = Some tag
  | Some _ => base nr <> Some tag /\ forall c, child_of s c r -> c = tag
  end.

(** [rep_free]: a node can be moved below any other; [rep_ranks]: the way to a split follows
    the heights in [nodes] *)
Record tree_law (TR : tree_impl K) := {
  rep : tree_t TR -> nodes K -> Prop;
  rep_free : Prop;
  rep_ranks : Prop;
  rep_shape : forall t s, rep t s -> shape_ok s;
  rep_empty : rep (tr_empty TR) [];
  rep_contains : forall t s k, rep t s -> tr_contains TR t k = dmem s k;
  rep_base : forall t s k n, rep t s -> dget s k = Some n -> tr_base TR t k = Ok (base n);
  rep_path : forall t s k l, rep t s -> up s k l -> tr_path_to TR t k = Ok (Some (rev l));
  rep_nopath : forall t s k, rep t s -> dget s k = None ->
    tr_path_to TR t k = Ok None \/ tr_path_to TR t k = Ok (Some []);
  rep_add : forall t s k b, rep t s -> dget s k = None ->
    exists t', tr_add TR k b t = (t', Ok tt) /\ rep t' (fst (m_add k b s));
  rep_move : forall t s k r n0 nr lr, rep t s -> dget s k = Some n0 -> dget s r = Some nr ->
    up s r lr -> ~ In k lr -> rep_free \/ slot_free s k n0 r nr ->
    exists t' s', tr_change_parent TR k r t = (t', Ok tt) /\ rep t' s' /\ reparented s s' k r;
  rep_split : forall t s k n, rep t s -> dget s k = Some n ->
    exists p, tr_get_split TR t k = Ok (last p k, p) /\ down s k p /\ (rep_ranks -> split_way s 1 k p);
  rep_nosplit : forall t s k, rep t s -> dget s k = None -> exists e, tr_get_split TR t k = Err e
}.

(** * dict and MemoryTree *)
Definition dict_law : store_law (dict_store K).
Proof.
  refine (@Build_store_law (dict_store K) (@dget K (list Z) E) (fun d => NoDup (dkeys d)) _ _ _ _ _ _ _);
    cbn [dict_store store_t s_empty s_get s_set s_del s_mem].
  - constructor.
  - intros d k b; apply NoDup_dset.
  - reflexivity.
  - reflexivity.
  - intros d k b u; apply dget_dset.
  - intros d k N Hk. unfold dmem. destruct (dget d k); [|now destruct Hk].
    exists (ddel d k); split; [reflexivity|]. split; [now apply NoDup_ddel|].
    intros u; destruct (teq_spec k u) as [->|Hu].
    + now apply dget_ddel_same.
    + now apply dget_ddel_other.
  - reflexivity.
Defined.

Lemma moved_reparented s s3 s' tag p0 r : moved_tree s s3 tag p0 (Some r) -> same_shape s3 s' ->
  reparented s s' tag r.
Proof.
  intros [Hk Hg] [Hk' Hs]; split; [congruence|]. intros u; specialize (Hs u); rewrite Hg in Hs.
  destruct (dget s u), (dget s' u); auto. destruct Hs as [H1 [H2 [_ H4]]]; cbn in *; auto.
Qed.

Definition memory_law : tree_law (memory_tree K).
Proof.
  refine (@Build_tree_law (memory_tree K) (fun t s => t = s /\ tree_ok s) True True _ _ _ _ _ _ _ _ _ _); cbn.
  - intros t s [_ [H _]]; exact H.
  - split; [reflexivity|apply empty_ok].
  - intros t s k [-> _]; reflexivity.
  - intros t s k n [-> _] H; unfold m_base_version; now rewrite H.
  - intros t s k l [-> _] H; now apply path_to_ok.
  - intros t s k [-> _] H; left; now apply path_to_unknown.
  - intros t s k b [-> T] H; eexists; split; [reflexivity|]. split; [reflexivity|].
    now apply add_ok.
  - intros t s k r n0 nr lr [-> T] H0 Hr Hu Hn _.
    destruct (change_parent_ok s k n0 r lr T H0 Hu Hn) as [s3 [s' [Hc [T' [M S]]]]].
    exists s', s'. split; [exact Hc|]. split; [split; [reflexivity|exact T']|]. eapply moved_reparented; eauto.
  - intros t s k n [-> T] H. destruct (get_split_way s k n T H) as [p [Hp W]].
    exists p. split; [exact Hp|]. split; [now apply split_way_down in W|auto].
  - intros t s k [-> _] H; unfold m_get_split; rewrite H; eauto.
Defined.
End Laws.
Arguments view {K E} {S}. Arguments fine {K E} {S}. Arguments rep {K E} {TR}.
Arguments rep_free {K E} {TR}. Arguments rep_ranks {K E} {TR}.

(** trees whose heights and sizes are right *)
Class Exact {K : Type} {E : Teq K} {TR : tree_impl K} (TL : tree_law TR) : Prop := {
  exact_metrics : forall t s, rep TL t s -> tree_ok s;
  exact_ranks : rep_ranks TL
}.
Lemma rep_ok {K : Type} {E : Teq K} (TR : tree_impl K) (TL : tree_law TR) {X : Exact TL} t s : rep TL t s -> tree_ok s.
Proof. apply exact_metrics. Qed.
Lemma rep_way {K : Type} {E : Teq K} (TR : tree_impl K) (TL : tree_law TR) {X : Exact TL} t s k n : rep TL t s ->
  dget s k = Some n -> exists p, tr_get_split TR t k = Ok (last p k, p) /\ split_way s 1 k p.
Proof. intros R H. destruct (rep_split _ TL t s k n R H) as [p [Hp [_ W]]]. exists p; split; [exact Hp|apply W, exact_ranks]. Qed.
#[global] Instance memory_exact {K : Type} {E : Teq K} {O : TeqOk K} : Exact (TR := memory_tree K) memory_law.
Proof. split; [intros t s [_ H]; exact H|exact I]. Qed.

(** * Chains *)
Section Chains.
Context {K : Type} {E : Teq K} {O : TeqOk K}.
Implicit Type s : nodes K.

(** same tags in the same order *)
Definition ordered s s' : Prop :=
  dkeys s' = dkeys s /\ forall u, option_map order_id (dget s' u) = option_map order_id (dget s u).
Lemma reparented_ordered s s' tag r : reparented s s' tag r -> ordered s s'.
Proof.
  intros [H1 H2]; split; [exact H1|]. intros u; specialize (H2 u).
  destruct (dget s u), (dget s' u); cbn; try tauto. destruct H2 as [_ [_ ->]]; reflexivity.
Qed.
Lemma ordered_trans a b c : ordered a b -> ordered b c -> ordered a c.
Proof. intros [A1 A2] [B1 B2]; split; [congruence|]. intros u; now rewrite B2, A2. Qed.

Lemma up_known s t l : up s t l -> dget s t <> None.
Proof. inversion 1; congruence. Qed.
Lemma up_down s t l : up s t l -> exists r n, dget s r = Some n /\ parent n = None /\
  down s r (rev l) /\ last (rev l) r = t /\ exists p, rev l = r :: p.
Proof.
  induction 1 as [t n H1 H2|t n q l H1 H2 H [r [nr [A [B [C [D [p P]]]]]]]].
  - exists t, n; repeat split; auto; [apply down_one; congruence|exists []; reflexivity].
  - exists r, nr; cbn [rev]; rewrite P in *. split; [exact A|]. split; [exact B|]. split; [|split].
    + apply down_snoc; [exact C|rewrite D; exists n; auto|congruence].
    + apply last_last.
    + exists (p ++ [t]); reflexivity.
Qed.
Lemma last_cons_any {A} (a : A) l d d' : last (a :: l) d = last (a :: l) d'.
Proof. revert a; induction l as [|b l IH]; intros a; [reflexivity|exact (IH b)]. Qed.
Lemma down_cons s t p : down s t p -> exists q, p = t :: q.
Proof. inversion 1; eauto. Qed.
(** going down from [t] lengthens the way up *)
Lemma down_up_chain s t p : down s t p -> forall l, up s t l ->
  exists l', up s (last p t) (l' ++ l) /\ length l' = length p - 1 /\ (forall x, In x l' -> x <> t) /\
    (forall x, In x l' -> In x p).
Proof.
  induction 1 as [t H|t c p [n [Hn Hp]] H IH]; intros l Hl.
  - exists []; cbn; repeat split; auto; intros x [].
  - assert (Hc : up s c (c :: l)) by (eapply up_step; eauto).
    destruct (IH _ Hc) as [l' [A [B [C D]]]]. exists (l' ++ [c]).
    rewrite <- app_assoc; cbn [app].
    destruct (down_cons _ _ _ H) as [q Hq].
    assert (L : last (t :: p) t = last p c) by (rewrite Hq; cbn; destruct q; [reflexivity|apply last_cons_any]).
    rewrite L. split; [exact A|]. split; [rewrite app_length; cbn; rewrite Hq in *; cbn in *; lia|].
    pose proof (up_NoDup _ _ _ A) as ND.
    split.
    + intros x Hx ->. destruct (up_head _ _ _ Hl) as [l0 ->].
      replace (l' ++ c :: t :: l0) with ((l' ++ [c]) ++ t :: l0) in ND by (now rewrite <- app_assoc).
      apply NoDup_remove_2 in ND. apply ND, in_or_app; now left.
    + intros x Hx; apply in_app_or in Hx as [Hx|[->|[]]]; [right; auto|rewrite Hq; cbn; auto].
Qed.

Lemma reparented_get s s' tag r u n : reparented s s' tag r -> dget s u = Some n ->
  exists m, dget s' u = Some m /\ parent m = (if teq tag u then Some r else parent n) /\ base m = base n.
Proof. intros [_ H] Hn; specialize (H u); rewrite Hn in H. destruct (dget s' u); [|tauto]. eexists; intuition eauto. Qed.
Lemma reparented_get' s s' tag r u m : reparented s s' tag r -> dget s' u = Some m ->
  exists n, dget s u = Some n /\ parent m = (if teq tag u then Some r else parent n) /\ base m = base n.
Proof. intros [_ H] Hn; specialize (H u); rewrite Hn in H. destruct (dget s u); [|tauto]. eexists; intuition eauto. Qed.
Lemma reparented_none s s' tag r u : reparented s s' tag r -> (dget s u = None <-> dget s' u = None).
Proof. intros [_ H]; specialize (H u). destruct (dget s u), (dget s' u); intuition congruence. Qed.
(** chains that avoid the moved node stay *)
Lemma reparented_up s s' tag r t l : reparented s s' tag r -> up s t l -> ~ In tag l -> up s' t l.
Proof.
  intros R; induction 1 as [t n H1 H2|t n q l H1 H2 H IH]; intros Hn.
  - destruct (reparented_get _ _ _ _ _ _ R H1) as [m [Hm [Hp _]]].
    eapply up_root; [exact Hm|]. rewrite Hp; destruct (teq_spec tag t) as [->|]; [exfalso; apply Hn; now left|exact H2].
  - destruct (reparented_get _ _ _ _ _ _ R H1) as [m [Hm [Hp _]]].
    eapply up_step with (q := q); [exact Hm| |apply IH; intros C; apply Hn; now right].
    rewrite Hp; destruct (teq_spec tag t) as [->|]; [exfalso; apply Hn; now left|exact H2].
Qed.
Lemma reparented_child s s' tag r c q : reparented s s' tag r ->
  (child_of s' c q <-> (c = tag /\ q = r /\ dget s tag <> None) \/ (c <> tag /\ child_of s c q)).
Proof.
  intros R; split.
  - intros [m [Hm Hp]]. destruct (reparented_get' _ _ _ _ _ _ R Hm) as [n [Hn [Hq _]]].
    rewrite Hq in Hp. destruct (teq_spec tag c) as [->|Hc].
    + left; repeat split; congruence.
    + right; split; [congruence|exists n; auto].
  - intros [[-> [-> Hn]]|[Hc [n [Hn Hp]]]].
    + destruct (dget s tag) as [n|] eqn:Ht; [|now destruct Hn].
      destruct (reparented_get _ _ _ _ _ _ R Ht) as [m [Hm [Hq _]]]. rewrite teq_refl in Hq. exists m; auto.
    + destruct (reparented_get _ _ _ _ _ _ R Hn) as [m [Hm [Hq _]]]. exists m; split; [exact Hm|].
      rewrite Hq. destruct (teq_spec tag c); [congruence|exact Hp].
Qed.
End Chains.

(** * The invariant *)
Section Inv.
Context {K : Type} {E : Teq K} {O : TeqOk K}.
Variable re_w : Z -> bool.
Variable tk : tkind.
Variables HS DS : store K.
Variable TR : tree_impl K.
Variable HL : store_law HS.
Variable DL : store_law DS.
Variable TL : tree_law TR.
Notation vstate := (@vstate K HS DS TR).
Notation make_changeset := (make_changeset re_w tk).

Definition edge_bytes (bq bt d : list Z) : Prop :=
  exists items, make_changeset bq bt = Ok items /\ serialize_changeset items = Ok d.

(** [V] are the versions added so far, [x] is a node whose diff need not be right *)
Record core (x : option K) (V : K -> option (list Z)) (v : vstate) (s : nodes K) : Prop := {
  c_rep : rep TL (tree v) s;
  c_fine : fine HL (heads v) /\ fine DL (diffs v);
  c_dom : forall t, dget s t = None <-> V t = None;
  c_ok : forall t b, V t = Some b -> storable tk b;
  c_head : forall t n, dget s t = Some n -> parent n = None -> view HL (heads v) t = V t;
  c_diff : forall t n q bq bt, dget s t = Some n -> parent n = Some q -> V q = Some bq -> V t = Some bt ->
    Some t <> x -> exists d, view DL (diffs v) t = Some d /\ edge_bytes bq bt d
}.
(** nothing more than needed is stored, except perhaps for [x] *)
Definition tidy (x : option K) (v : vstate) (s : nodes K) : Prop := forall t, Some t <> x ->
  (view HL (heads v) t <> None -> exists n, dget s t = Some n /\ parent n = None) /\
  (view DL (diffs v) t <> None -> exists n, dget s t = Some n /\ parent n <> None).

Lemma core_weak x V v s : core None V v s -> core x V v s.
Proof. intros C; split; try apply C. intros; eapply c_diff; eauto; discriminate. Qed.

Lemma ok_forest V v s x : core x V v s -> forall t, V t <> None -> exists l, up s t l.
Proof.
  intros C t Ht. destruct (rep_shape _ TL _ _ (c_rep _ _ _ _ C)) as [_ [F _]]. apply F.
  intros H; apply (c_dom _ _ _ _ C) in H; contradiction.
Qed.
Lemma child_known V v s x c q : core x V v s -> child_of s c q -> dget s q <> None.
Proof.
  intros C [n [Hn Hp]]. destruct (rep_shape _ TL _ _ (c_rep _ _ _ _ C)) as [_ [F _]].
  destruct (F c) as [l Hl]; [congruence|]. inversion Hl as [? ? H1 H2|? ? ? ? H1 H2 H3]; subst.
  - congruence.
  - assert (Heq : q = q0) by congruence. subst. now apply up_known in H3.
Qed.

(** replaying the diffs along a way down *)
Lemma retrieve_down x V v s : core x V v s -> forall t p, down s t p ->
  (forall u, In u (tl p) -> Some u <> x) ->
  forall bt tst st toks, V t = Some bt -> texts re_w tk (CBytes bt) = Some tst ->
  st_ok st -> source_type st = Some SBytes -> ready tk st ->
  names tk st toks tst -> tk <> KLine \/ length p <= 2 ->
  exists b, V (last p t) = Some b /\ retrieve_loop re_w tk HS DS TR v st toks (tl p) = Ok b.
Proof.
  intros C t p Hd.
  assert (Fin : forall bt ts st toks, concat ts = bt -> source_type st = Some SBytes -> ready tk st ->
     names tk st toks ts -> retrieve_loop re_w tk HS DS TR v st toks [] = Ok bt).
  { intros bt ts st toks Hc S R N. cbn [retrieve_loop].
    rewrite (decode_names tk st toks ts R N); cbn [bind]. rewrite raw_mk. now rewrite Hc. }
  induction Hd as [t Ht|t c p Hc Hd IH]; intros Hx bt tst st toks Hb Htx Hst S R N Hk.
  - exists bt; split; [exact Hb|]. cbn [tl]. eapply Fin; eauto. now apply texts_concat in Htx.
  - destruct (down_cons _ _ _ Hd) as [p' ->]. cbn [tl] in *.
    destruct Hc as [n [Hn Hp]].
    destruct (V c) as [bc|] eqn:Hbc; [|apply (c_dom _ _ _ _ C) in Hbc; congruence].
    destruct (c_diff _ _ _ _ C c n t bt bc Hn Hp Hb Hbc (Hx c (or_introl eq_refl))) as [d [Hd' [items [Hm Hs]]]].
    pose proof (c_ok _ _ _ _ C t bt Hb) as Sb. pose proof (c_ok _ _ _ _ C c bc Hbc) as Sc.
    destruct (texts_encodable re_w tk (CBytes bc) (proj1 Sc)) as [tsc Htc].
    destruct (make_changeset_ok re_w tk bt bc tst tsc Sb Sc Htx Htc) as [items' [Hm' PB]].
    assert (items' = items) by congruence; subst items'.
    pose proof PB as [_ [d' [Hs' Hde]]]. assert (d' = d) by congruence; subst d'.
    destruct (replay_step re_w tk items tst tsc bc st toks PB Sc Htc Hst S R N)
      as [st' [pt [tsc' [E1 [O1 [S1 [R1 [N1 [C1 K1]]]]]]]]].
    cbn [retrieve_loop]. rewrite (view_get _ DL), Hd'; cbn [bind]. rewrite Hde, E1; cbn [bind].
    assert (L : last (t :: c :: p') t = last (c :: p') c) by (change (last (t :: c :: p') t) with (last (c :: p') t); apply last_cons_any).
    rewrite L.
    destruct Hk as [Hk|Hk].
    + rewrite (K1 Hk) in N1. apply (IH) with (bt := bc) (tst := tsc); auto.
      intros u Hu; apply Hx; now right.
    + cbn in Hk. destruct p' as [|? p']; [|cbn in Hk; lia]. cbn [last].
      exists bc; split; [exact Hbc|]. eapply Fin; eauto.
Qed.

(** line tokens: every stored diff replays *)
Definition calm bq bt : Prop := forall items, make_changeset bq bt = Ok items -> Forall calm_item items.
Definition calm_edges (V : K -> option (list Z)) (s : nodes K) : Prop :=
  forall c q bc bq, child_of s c q -> V c = Some bc -> V q = Some bq -> calm bq bc.

Lemma retrieve_calm x V v s : core x V v s -> tk = KLine -> calm_edges V s -> forall t p, down s t p ->
  (forall u, In u (tl p) -> Some u <> x) ->
  forall bt tst tst' st toks, V t = Some bt -> texts re_w tk (CBytes bt) = Some tst -> near tst' tst -> concat tst' = bt ->
  st_ok st -> source_type st = Some SBytes -> ready tk st -> names tk st toks tst' ->
  exists b, V (last p t) = Some b /\ retrieve_loop re_w tk HS DS TR v st toks (tl p) = Ok b.
Proof.
  intros C Hk Calm t p Hd.
  induction Hd as [t Ht|t c p Hc Hd IH]; intros Hx bt tst tst' st toks Hb Htx Hn Hcc Hst S R N.
  - exists bt; split; [exact Hb|]. cbn [tl retrieve_loop].
    rewrite (decode_names tk st toks tst' R N); cbn [bind]. rewrite raw_mk. now rewrite Hcc.
  - destruct (down_cons _ _ _ Hd) as [p' ->]. cbn [tl] in *. pose proof Hc as Hc0.
    destruct Hc as [n [Hn' Hp]].
    destruct (V c) as [bc|] eqn:Hbc; [|apply (c_dom _ _ _ _ C) in Hbc; congruence].
    destruct (c_diff _ _ _ _ C c n t bt bc Hn' Hp Hb Hbc (Hx c (or_introl eq_refl))) as [d [Hd' [items [Hm Hs]]]].
    pose proof (c_ok _ _ _ _ C t bt Hb) as Sb. pose proof (c_ok _ _ _ _ C c bc Hbc) as Sc.
    destruct (texts_encodable re_w tk (CBytes bc) (proj1 Sc)) as [tsc Htc].
    destruct (make_changeset_ok re_w tk bt bc tst tsc Sb Sc Htx Htc) as [items' [Hm' PB]].
    assert (items' = items) by congruence; subst items'.
    pose proof PB as [_ [d' [Hs' Hde]]]. assert (d' = d) by congruence; subst d'.
    cbn [retrieve_loop]. rewrite (view_get _ DL), Hd'; cbn [bind]. rewrite Hde.
    pose proof (Calm c t bc bt Hc0 Hbc Hb items Hm) as Fi.
    assert (Sc' : storable KLine bc) by (rewrite <- Hk; exact Sc).
    rewrite Hk in *.
    destruct (replay_line re_w items tst tsc bc st toks tst' PB Sc' Htc Fi Hn Hst S R N)
      as [st' [pt [tsc' [E1 [O1 [S1 [R1 [N1 [C1 K1]]]]]]]]].
    rewrite E1; cbn [bind].
    assert (L : last (t :: c :: p') t = last (c :: p') c) by (change (last (t :: c :: p') t) with (last (c :: p') t); apply last_cons_any).
    rewrite L. apply (IH ltac:(intros u Hu; apply Hx; now right) bc tsc tsc'); auto.
Qed.

Lemma retrieve_ok x V v s t p : core x V v s -> down s t p -> view HL (heads v) t = V t -> V t <> None ->
  (forall u, In u (tl p) -> Some u <> x) -> tk <> KLine \/ length p <= 2 \/ calm_edges V s ->
  exists b, V (last p t) = Some b /\ retrieve_using_path re_w tk HS DS TR v p = Ok b.
Proof.
  intros C Hd Hv Hn Hx Hk. destruct (V t) as [bt|] eqn:Hb; [|now destruct Hn].
  destruct (down_cons _ _ _ Hd) as [p' ->]. unfold retrieve_using_path.
  rewrite (view_get _ HL), Hv; cbn [bind].
  pose proof (c_ok _ _ _ _ C t bt Hb) as Sb.
  destruct (texts_encodable re_w tk (CBytes bt) (proj1 Sb)) as [tst Htx].
  destruct (encode_ok re_w tk new_tokenizer (CBytes bt) tst new_ok (or_introl eq_refl) (proj1 (proj1 Sb)) Htx)
    as [s1 [toks [E1 [O1 [X1 [S1 [R1 N1]]]]]]].
  rewrite E1; cbn [bind].
  assert (Hk' : (tk <> KLine \/ length (t :: p') <= 2) \/ (tk = KLine /\ calm_edges V s)).
  { destruct tk; intuition congruence. }
  destruct Hk' as [Hk'|[Hk' Hc]].
  - apply (retrieve_down x V v s C t (t :: p') Hd Hx bt tst s1 toks); auto.
  - apply (retrieve_calm x V v s C Hk' Hc t (t :: p') Hd Hx bt tst tst s1 toks); auto; [now left|].
    now apply texts_concat in Htx.
Qed.

Lemma get_ok x V v s t b l : core x V v s -> V t = Some b -> up s t l ->
  (forall u, In u l -> Some u <> x) -> tk <> KLine \/ length l <= 2 \/ calm_edges V s ->
  get re_w tk HS DS TR v t = Ok (Some b).
Proof.
  intros C Hb Hu Hx Hk. destruct (up_down _ _ _ Hu) as [r [n [Hr [Hp [Hd [Hl [p Hrev]]]]]]].
  unfold get. rewrite (rep_path _ TL _ s t l (c_rep _ _ _ _ C) Hu); cbn [bind]. rewrite Hrev in *.
  destruct (retrieve_ok x V v s r (r :: p) C Hd (c_head _ _ _ _ C r n Hr Hp)) as [b' [Hb' Hret]].
  - intros Hv; apply (c_dom _ _ _ _ C) in Hv; congruence.
  - intros u Hin; apply Hx. apply in_rev; rewrite Hrev; now right.
  - destruct Hk as [Hk|[Hk|Hk]]; [now left|right; left|right; now right]. rewrite <- Hrev, rev_length; exact Hk.
  - rewrite Hret; cbn [bind]. rewrite Hl in Hb'. congruence.
Qed.
Lemma get_none x V v s t : core x V v s -> V t = None -> get re_w tk HS DS TR v t = Ok None.
Proof.
  intros C Hb. apply (c_dom _ _ _ _ C) in Hb. unfold get.
  destruct (rep_nopath _ TL _ s t (c_rep _ _ _ _ C) Hb) as [-> | ->]; reflexivity.
Qed.

Lemma edge_total bq bt : storable tk bq -> storable tk bt -> exists items d,
  make_changeset bq bt = Ok items /\ serialize_changeset items = Ok d.
Proof.
  intros Sq St. destruct (texts_encodable re_w tk (CBytes bq) (proj1 Sq)) as [tq Hq].
  destruct (texts_encodable re_w tk (CBytes bt) (proj1 St)) as [tt' Ht].
  destruct (make_changeset_ok re_w tk bq bt tq tt' Sq St Hq Ht) as [items [Hm [_ [d [Hs _]]]]]. eauto.
Qed.

(** * Steps *)
Lemma core_empty : core None (fun _ => None) v_empty [].
Proof.
  split; cbn; try discriminate; try tauto; [apply rep_empty|split; apply fine_empty].
Qed.
Lemma tidy_empty : tidy None v_empty [].
Proof. intros t _; cbn; rewrite (view_empty _ HL), (view_empty _ DL); tauto. Qed.

Definition upd (V : K -> option (list Z)) (t : K) (b : list Z) : K -> option (list Z) :=
  fun u => if teq t u then Some b else V u.

Lemma core_heads x V (v : vstate) s h : core x V v s -> fine HL h ->
  (forall t n, dget s t = Some n -> parent n = None -> view HL h t = V t) ->
  core x V (mkV h (diffs v) (tree v)) s.
Proof. intros C Hf H; split; cbn; try apply C; auto. split; [exact Hf|apply C]. Qed.
Lemma core_diff x y V (v : vstate) s c d : core x V v s -> y = x \/ (x = None /\ y = Some c) ->
  (forall n, dget s c = Some n -> parent n <> None -> y = Some c) ->
  core y V (mkV (heads v) (s_set DS c d (diffs v)) (tree v)) s.
Proof.
  intros C Hy Hc; split; cbn; try apply C.
  { split; [apply C|apply fine_set, C]. }
  intros t n q bq bt Hn Hp Hq Ht Hx. rewrite (view_set _ DL).
  destruct (teq_spec c t) as [->|Hct].
  - exfalso; apply Hx; symmetry; apply (Hc n); congruence.
  - eapply (c_diff _ _ _ _ C); eauto. destruct Hy as [-> | [-> _]]; [exact Hx|discriminate].
Qed.

(** line 35: the new tag's contents go into the store of heads *)
Lemma set_head_core V (v : vstate) s tag b : core None V v s -> V tag = None ->
  core None V (mkV (s_set HS tag b (heads v)) (diffs v) (tree v)) s.
Proof.
  intros C Hv; apply core_heads; [exact C|apply fine_set, C|]. intros t n Hn Hp. rewrite (view_set _ HL).
  destruct (teq_spec tag t) as [->|]; [|now apply (c_head _ _ _ _ C t n)].
  apply (c_dom _ _ _ _ C) in Hv; congruence.
Qed.
(** line 36: the new tag becomes a root *)
Lemma tree_add_core V (v : vstate) s tag b base : core None V v s -> tidy None v s -> V tag = None -> storable tk b ->
  exists t', tr_add TR tag base (tree v) = (t', Ok tt) /\
  let v2 := mkV (s_set HS tag b (heads v)) (diffs v) t' in
  let s2 := fst (m_add tag base s) in
  core None (upd V tag b) v2 s2 /\ tidy None v2 s2 /\
  dget s2 tag = Some (mkNode (length s) None [] 1 1 base) /\
  (forall u, u <> tag -> dget s2 u = dget s u).
Proof.
  intros C T Hv Sb. pose proof (proj2 (c_dom _ _ _ _ C tag) Hv) as Hs.
  destruct (rep_add _ TL _ s tag base (c_rep _ _ _ _ C) Hs) as [t' [Ha R]].
  exists t'; split; [exact Ha|]. cbn zeta.
  destruct (add_gets s tag base Hs) as [G _].
  set (s2 := fst (m_add tag base s)) in *.
  assert (G1 : dget s2 tag = Some (mkNode (length s) None [] 1 1 base)) by (rewrite G; now rewrite teq_refl).
  assert (G2 : forall u, u <> tag -> dget s2 u = dget s u).
  { intros u Hu; rewrite G; destruct (teq_spec tag u); congruence. }
  split; [|split; [|split]]; auto.
  - split; cbn.
    + exact R.
    + split; [apply fine_set, C|apply C].
    + intros t; unfold upd; rewrite G. destruct (teq tag t); [split; discriminate|apply (c_dom _ _ _ _ C)].
    + intros t b'; unfold upd; destruct (teq tag t); [intros [= <-]; exact Sb|apply (c_ok _ _ _ _ C)].
    + intros t n Hn Hp. rewrite (view_set _ HL); unfold upd; rewrite G in Hn.
      destruct (teq tag t); [reflexivity|]. now apply (c_head _ _ _ _ C t n).
    + intros t n q bq bt Hn Hp Hq Ht _. rewrite G in Hn; unfold upd in Hq, Ht.
      destruct (teq_spec tag t) as [->|Htt]; [injection Hn as <-; discriminate|].
      destruct (teq_spec tag q) as [->|Htq].
      * exfalso. apply (child_known V v s None t q C); [exists n; auto|exact Hs].
      * eapply (c_diff _ _ _ _ C); eauto; discriminate.
  - intros t _; cbn. rewrite (view_set _ HL). destruct (T t) as [T1 T2]; [discriminate|].
    rewrite G. destruct (teq_spec tag t) as [->|Htt].
    + split; [intros _; eexists; split; [reflexivity|reflexivity]|].
      intros H; apply T2 in H as [n [Hn _]]; congruence.
    + split; [exact T1|exact T2].
Qed.

(** a change of parent after the diff is in place *)
Lemma move_core y V (v : vstate) s q c nc nq lq bq bc d :
  core y V v s -> y = None \/ y = Some c -> dget s c = Some nc -> dget s q = Some nq -> up s q lq -> ~ In c lq ->
  rep_free TL \/ slot_free s c nc q nq -> V q = Some bq -> V c = Some bc ->
  view DL (diffs v) c = Some d -> edge_bytes bq bc d ->
  exists t' s', tr_change_parent TR c q (tree v) = (t', Ok tt) /\
    let v' := mkV (heads v) (diffs v) t' in
    core None V v' s' /\ reparented s s' c q.
Proof.
  intros C Hy Hc Hq Hu Hn SF Bq Bc Hd Ed.
  destruct (rep_move _ TL _ s c q nc nq lq (c_rep _ _ _ _ C) Hc Hq Hu Hn SF) as [t' [s' [Ht [R P]]]].
  exists t', s'; split; [exact Ht|]. cbn zeta. split; [|exact P].
  split; cbn.
  - exact R.
  - apply C.
  - intros t; rewrite <- (c_dom _ _ _ _ C t). symmetry; eapply reparented_none; eauto.
  - apply (c_ok _ _ _ _ C).
  - intros t n Hn' Hp. destruct (reparented_get' _ _ _ _ _ _ P Hn') as [m [Hm [Hpm _]]].
    destruct (teq_spec c t); [congruence|]. apply (c_head _ _ _ _ C t m); congruence.
  - intros t n q' bq' bt Hn' Hp Hq' Ht' _. destruct (reparented_get' _ _ _ _ _ _ P Hn') as [m [Hm [Hpm _]]].
    destruct (teq_spec c t) as [->|Hct].
    + assert (q' = q) by congruence; subst. exists d. split; [exact Hd|]. congruence.
    + eapply (c_diff _ _ _ _ C t m); eauto; [congruence|]. destruct Hy as [-> | ->]; congruence.
Qed.

(** * Adding *)
Notation core0 := (core None).
Notation add := (add re_w tk HS DS TR).

Lemma vbind_ok {A B} (m : vm HS DS TR A) (f : A -> vm HS DS TR B) v t1 v1 a t2 r :
  m v = (t1, (v1, Ok a)) -> f a v1 = (t2, r) -> vbind HS DS TR m f v = (t1 ++ t2, r).
Proof. intros H1 H2; unfold vbind; now rewrite H1, H2. Qed.
Lemma vbind_err {A B} (m : vm HS DS TR A) (f : A -> vm HS DS TR B) v t1 v1 e :
  m v = (t1, (v1, Err e)) -> vbind HS DS TR m f v = (t1, (v1, Err e)).
Proof. intros H1; unfold vbind; now rewrite H1. Qed.

Lemma add_none V (v : vstate) s tag b : core0 V v s -> tidy None v s -> V tag = None -> storable tk b ->
  exists v1 v2, add tag b None v = ([v1; v2], (v2, Ok tt)) /\ core0 V v1 s /\
    core0 (upd V tag b) v2 (fst (m_add tag None s)) /\ tidy None v2 (fst (m_add tag None s)).
Proof.
  intros C T Hv Sb. destruct (tree_add_core V v s tag b None C T Hv Sb) as [t' [Ha [C2 [T2 _]]]].
  eexists _, _. split; [|split; [apply (set_head_core V v s tag b C Hv)|split; [exact C2|exact T2]]].
  unfold Versions.add, set_head, on_tree, vbind, vret; cbn. rewrite Ha; reflexivity.
Qed.

(** the base is not a head *)
Lemma add_rejected V (v : vstate) s tag b h : core0 V v s -> tidy None v s -> V tag = None -> storable tk b ->
  h <> tag -> view HL (heads v) h = None ->
  exists v1 v2 e, add tag b (Some h) v = ([v1; v2], (v2, Err e)) /\ core0 V v1 s /\
    core0 (upd V tag b) v2 (fst (m_add tag (Some h) s)) /\ tidy None v2 (fst (m_add tag (Some h) s)) /\
    (V h <> None -> e = KeyError) /\ (V h = None -> tr_get_split TR (tree v2) h = Err e).
Proof.
  intros C T Hv Sb Hht Hh. destruct (tree_add_core V v s tag b (Some h) C T Hv Sb) as [t' [Ha [C2 [T2 [G1 G2]]]]].
  set (v1 := mkV (s_set HS tag b (heads v)) (diffs v) (tree v)).
  set (v2 := mkV (s_set HS tag b (heads v)) (diffs v) t').
  assert (Hh2 : view HL (heads v2) h = None).
  { cbn. rewrite (view_set _ HL). destruct (teq_spec tag h); congruence. }
  unfold Versions.add. 
  assert (Hrest : exists e, vbind HS DS TR (look HS DS TR (fun v => tr_get_split TR (tree v) h)) (fun sp =>
    vbind HS DS TR (if teq (fst sp) h then vret HS DS TR tt else
           vbind HS DS TR (look HS DS TR (fun v => retrieve_using_path re_w tk HS DS TR v (snd sp))) (fun split_version =>
           vbind HS DS TR (look HS DS TR (fun _ => Versions.make_changeset re_w tk b split_version)) (fun cs =>
           vbind HS DS TR (add_edge HS DS TR tag (fst sp) cs) (fun _ =>
           on_tree HS DS TR (tr_change_parent TR (fst sp) tag))))) (fun _ =>
    vbind HS DS TR (look HS DS TR (fun v => s_get HS (heads v) h)) (fun head_version =>
    vbind HS DS TR (look HS DS TR (fun _ => Versions.make_changeset re_w tk b head_version)) (fun cs =>
    add_edge HS DS TR tag h cs)))) v2 = ([], (v2, Err e)) /\ (V h <> None -> e = KeyError) /\
      (V h = None -> tr_get_split TR (tree v2) h = Err e)).
  { destruct (V h) as [bh|] eqn:Hvh.
    - assert (Hd : dget (fst (m_add tag (Some h) s)) h <> None).
      { rewrite G2 by congruence. intros Hc; apply (c_dom _ _ _ _ C) in Hc; congruence. }
      destruct (dget (fst (m_add tag (Some h) s)) h) as [nh|] eqn:Hnh; [|now destruct Hd].
      destruct (rep_split _ TL _ _ h nh (c_rep _ _ _ _ C2) Hnh) as [p [Hsp [Hdn _]]].
      set (x := last p h) in *.
      cbn [tree] in Hsp. exists KeyError. split; [|split; [reflexivity|discriminate]].
      erewrite vbind_ok; [|unfold look; cbn [tree v2]; rewrite Hsp; reflexivity|].
      { rewrite app_nil_l; reflexivity. }
      cbn [fst snd]. destruct (teq x h).
      + erewrite vbind_ok; [|reflexivity|]. { rewrite app_nil_l; reflexivity. }
        apply vbind_err. unfold look. now rewrite (view_get _ HL), Hh2.
      + apply vbind_err, vbind_err. unfold look, retrieve_using_path.
        destruct (down_cons _ _ _ Hdn) as [p' ->]. now rewrite (view_get _ HL), Hh2.
    - destruct (rep_nosplit _ TL _ _ h (c_rep _ _ _ _ C2)) as [e He].
      { rewrite G2 by congruence. now apply (c_dom _ _ _ _ C). }
      cbn [tree] in He. exists e. split; [|split; [congruence|intros _; exact He]].
      apply vbind_err. unfold look; cbn [tree v2]; now rewrite He. }
  destruct Hrest as [e [He [He1 He2]]]. exists v1, v2, e. split; [|split; [|split; [exact C2|split; [exact T2|auto]]]].
  - erewrite vbind_ok; [|reflexivity|].
    2:{ erewrite vbind_ok; [|unfold on_tree; cbn [tree]; rewrite Ha; reflexivity|exact He]. reflexivity. }
    reflexivity.
  - apply set_head_core; auto.
Qed.

(** [_add_edge] *)
Lemma add_edge_ok V (v : vstate) s q c nc nq lq bq bc items : core0 V v s -> tidy None v s ->
  dget s c = Some nc -> dget s q = Some nq -> up s q lq -> ~ In c lq ->
  slot_free s c nc q nq -> V q = Some bq -> V c = Some bc -> make_changeset bq bc = Ok items ->
  exists v1 v2 v3 s', add_edge HS DS TR q c items v =
      (match parent nc with None => [v1; v2; v3] | Some _ => [v1; v3] end, (v3, Ok tt)) /\
    core (match parent nc with None => None | Some _ => Some c end) V v1 s /\
    core0 V v2 s' /\ core0 V v3 s' /\ tidy None v3 s' /\ reparented s s' c q /\
    (exists d, view DL (diffs v3) c = Some d /\ edge_bytes bq bc d).
Proof.
  intros C T Hc Hq Hu Hn SF Bq Bc Hm.
  pose proof (c_ok _ _ _ _ C q bq Bq) as Sq. pose proof (c_ok _ _ _ _ C c bc Bc) as Sc.
  destruct (edge_total bq bc Sq Sc) as [items' [d [Hm' Hs]]].
  assert (items' = items) by congruence; subst items'.
  set (v1 := mkV (heads v) (s_set DS c d (diffs v)) (tree v)).
  assert (Vd : view DL (diffs v1) c = Some d) by (cbn; rewrite (view_set _ DL); now rewrite teq_refl).
  assert (Ed : edge_bytes bq bc d) by (exists items; auto).
  assert (C1 : core (match parent nc with None => None | Some _ => Some c end) V v1 s).
  { apply core_diff with (x := None); [exact C| |].
    - destruct (parent nc); auto.
    - intros n Hn' Hp. assert (n = nc) by congruence; subst. now destruct (parent nc). }
  destruct (move_core (match parent nc with None => None | Some _ => Some c end) V v1 s q c nc nq lq bq bc d C1)
    as [t' [s' [Ht [C2 P]]]]; auto.
  { destruct (parent nc); auto. }
  set (v2 := mkV (heads v1) (diffs v1) t') in *. cbn zeta in C2.
  destruct (reparented_get _ _ _ _ _ _ P Hc) as [nc' [Hc' [Hpc' _]]]. rewrite teq_refl in Hpc'.
  assert (T2 : forall t, t <> c ->
    (view HL (heads v2) t <> None -> exists n, dget s' t = Some n /\ parent n = None) /\
    (view DL (diffs v2) t <> None -> exists n, dget s' t = Some n /\ parent n <> None)).
  { intros t Htc. destruct (T t) as [T1 T2]; [discriminate|]. cbn. rewrite (view_set _ DL).
    destruct (teq_spec c t); [congruence|]. split.
    - intros H; apply T1 in H as [n' [Hn' Hp']]. destruct (reparented_get _ _ _ _ _ _ P Hn') as [m [Hm1 [Hm2 _]]].
      exists m; split; [exact Hm1|]. rewrite Hm2. destruct (teq_spec c t); congruence.
    - intros H; apply T2 in H as [n' [Hn' Hp']]. destruct (reparented_get _ _ _ _ _ _ P Hn') as [m [Hm1 [Hm2 _]]].
      exists m; split; [exact Hm1|]. rewrite Hm2. destruct (teq_spec c t); congruence. }
  destruct (parent nc) as [pc|] eqn:Hpc.
  - (* not a head: nothing to delete *)
    assert (Hh : view HL (heads v2) c = None).
    { cbn. destruct (view HL (heads v) c) eqn:Hv; [|reflexivity].
      destruct (proj1 (T c ltac:(discriminate))) as [n' [Hn' Hp']]; [congruence|]. congruence. }
    exists v1, v2, v2, s'. split; [|split; [exact C1|split; [exact C2|split; [exact C2|split; [|split; [exact P|]]]]]].
    + unfold add_edge. erewrite vbind_ok; [|unfold look; rewrite Hs; reflexivity|].
      2:{ erewrite vbind_ok; [|reflexivity|].
          2:{ erewrite vbind_ok; [|unfold on_tree; cbn [tree]; fold v1; cbn [tree v1] in Ht; rewrite Ht; reflexivity|].
              2:{ erewrite vbind_ok; [|unfold look; rewrite (view_mem _ HL); cbn in Hh; unfold v1; cbn [heads]; rewrite Hh; reflexivity|reflexivity].
                  reflexivity. }
              reflexivity. }
          reflexivity. }
      reflexivity.
    + intros t _. destruct (teq_spec t c) as [->|Htc]; [|now apply T2].
      split; [congruence|]. intros _; exists nc'; split; [exact Hc'|congruence].
    + exists d; split; [exact Vd|exact Ed].
  - assert (Hh : view HL (heads v2) c <> None).
    { cbn. rewrite (c_head _ _ _ _ C c nc Hc Hpc). congruence. }
    destruct (view_del _ HL (heads v2) c (proj1 (c_fine _ _ _ _ C2)) Hh) as [h' [Hdel [Hfine Hvw]]].
    set (v3 := mkV h' (diffs v2) t').
    exists v1, v2, v3, s'. split; [|split; [exact C1|split; [exact C2|split; [|split; [|split; [exact P|]]]]]].
    + unfold add_edge. erewrite vbind_ok; [|unfold look; rewrite Hs; reflexivity|].
      2:{ erewrite vbind_ok; [|reflexivity|].
          2:{ erewrite vbind_ok; [|unfold on_tree; cbn [tree]; fold v1; cbn [tree v1] in Ht; rewrite Ht; reflexivity|].
              2:{ erewrite vbind_ok; [|unfold look; reflexivity|].
                  2:{ rewrite (view_mem _ HL); unfold v1; cbn [heads].
                      destruct (view HL (heads v) c) eqn:Hv; [|exfalso; apply Hh; exact Hv].
                      unfold del_head; cbn [heads]. cbn [heads v1 v2] in Hdel. rewrite Hdel. reflexivity. }
                  reflexivity. }
              reflexivity. }
          reflexivity. }
      reflexivity.
    + apply (core_heads None V v2 s' h' C2 Hfine). intros t n Hn' Hp. rewrite Hvw.
      destruct (teq_spec c t) as [->|]; [congruence|]. now apply (c_head _ _ _ _ C2 t n).
    + intros t _; cbn. rewrite Hvw. destruct (teq_spec c t) as [->|Htc].
      * split; [congruence|]. intros _; exists nc'; split; [exact Hc'|congruence].
      * apply T2; congruence.
    + exists d; split; [exact Vd|exact Ed].
Qed.

(** the base is a head *)
Lemma add_accepted V (v : vstate) s tag b h : core0 V v s -> tidy None v s -> V tag = None -> storable tk b ->
  view HL (heads v) h <> None ->
  (tk <> KLine \/ (forall p, down s h p -> length p <= 2) \/ calm_edges V s) ->
  exists tr v' s', add tag b (Some h) v = (tr, (v', Ok tt)) /\
    core0 (upd V tag b) v' s' /\ tidy None v' s' /\
    (exists n, dget s' tag = Some n /\ parent n = None /\ base n = Some h) /\
    child_of s' h tag /\
    (forall u m, u <> tag -> dget s' u = Some m -> exists n, dget s u = Some n /\ base m = base n /\
       (parent n = None -> u <> h -> parent m = None) /\ (parent n <> None -> parent m <> None)) /\
    exists sp, (sp = h -> length tr = 5) /\ (sp <> h -> length tr = 8) /\
      (exists p, (down s h p /\ (rep_ranks TL -> split_way s 1 h p)) /\ last p h = sp) /\
      (forall c q, child_of s' c q <-> (q = tag /\ (c = h \/ c = sp)) \/ (c <> h /\ c <> sp /\ child_of s c q)) /\
      (forall i w, nth_error tr i = Some w -> i <> 2 \/ sp = h -> exists s2, core0 V w s2 \/ core0 (upd V tag b) w s2) /\
      (sp <> h -> forall w, nth_error tr 2 = Some w -> core (Some sp) (upd V tag b) w (fst (m_add tag (Some h) s))) /\
      ordered (fst (m_add tag (Some h) s)) s'.
Proof.
  intros C T Hv Sb Hh Hk.
  destruct (proj1 (T h ltac:(discriminate)) Hh) as [nh [Hnh Hph]].
  assert (Hht : h <> tag) by (intros ->; apply (c_dom _ _ _ _ C) in Hv; congruence).
  destruct (V h) as [bh|] eqn:Bh; [|apply (c_dom _ _ _ _ C) in Bh; congruence].
  destruct (tree_add_core V v s tag b (Some h) C T Hv Sb) as [t2 [Ha [C2 [T2 [G1 G2]]]]].
  set (v1 := mkV (s_set HS tag b (heads v)) (diffs v) (tree v)).
  set (v2 := mkV (s_set HS tag b (heads v)) (diffs v) t2) in *.
  set (s2 := fst (m_add tag (Some h) s)) in *. set (V' := upd V tag b) in *. cbn zeta in C2, T2.
  assert (C1 : core0 V v1 s) by (now apply set_head_core).
  assert (V't : V' tag = Some b) by (unfold V', upd; now rewrite teq_refl).
  assert (V'h : V' h = Some bh) by (unfold V', upd; destruct (teq_spec tag h); congruence).
  assert (Hnh2 : dget s2 h = Some nh) by (rewrite G2; auto).
  assert (Hut2 : up s2 tag [tag]) by (eapply up_root; [exact G1|reflexivity]).
  destruct (rep_split _ TL _ _ h nh (c_rep _ _ _ _ C2) Hnh2) as [p [Hsp [Hdn Hway]]].
  destruct (exist (fun y => last p h = y) (last p h) eq_refl) as [sp Hl]. rewrite Hl in Hsp.
  assert (Nc2 : forall c, ~ child_of s2 c tag).
  { intros c [n [Hn Hp]]. destruct (teq_spec c tag) as [->|Hc].
    - rewrite G1 in Hn; injection Hn as <-; discriminate.
    - rewrite G2 in Hn by exact Hc. apply (child_known V v s None c tag C); [exists n; auto|].
      now apply (c_dom _ _ _ _ C). }
  assert (Hdn' : down s h p).
  { assert (Q : forall t0 p0, down s2 t0 p0 -> t0 <> tag -> down s t0 p0).
    { induction 1 as [t0 Hx|t0 c p0 Hc Hd IH]; intros Ht0.
      - apply down_one; rewrite <- G2; auto.
      - destruct Hc as [n [Hn Hp]].
        assert (Hct : c <> tag) by (intros Hct; subst c; rewrite G1 in Hn; injection Hn as Hn; subst n; discriminate).
        assert (Hn' : dget s c = Some n) by (rewrite <- G2; auto).
        eapply down_step; [exists n; split; [exact Hn'|exact Hp]|]. apply IH; exact Hct. }
    now apply Q. }
  assert (Hch2 : forall c q, child_of s2 c q <-> child_of s c q).
  { intros c q; unfold child_of. destruct (teq_spec c tag) as [->|Hc]; [|now rewrite G2].
    split; intros [n [Hn Hp]].
    - rewrite G1 in Hn; injection Hn as <-; discriminate.
    - apply (c_dom _ _ _ _ C) in Hv; congruence. }
  assert (Hway' : rep_ranks TL -> split_way s 1 h p).
  { intros RR; specialize (Hway RR). assert (Q : forall d t0 p0, split_way s2 d t0 p0 -> t0 <> tag -> split_way s d t0 p0).
    { induction 1 as [d t0 n Hn Hd|d t0 n c p0 Hn Hd Bc Hw IH]; intros Ht0.
      - eapply way_stop; [rewrite <- G2; eauto|exact Hd].
      - destruct Bc as [nc [Hc [Hp Hmax]]].
        assert (Hct : c <> tag) by (intros Hct; subst c; rewrite G1 in Hc; injection Hc as Hc; subst nc; discriminate).
        eapply way_go with (n := n) (c := c); [rewrite <- G2; auto|exact Hd| |now apply IH].
        exists nc; split; [rewrite <- G2; auto|]. split; [exact Hp|].
        intros c' n' Hc' Hp'. apply Hmax with c'; [|exact Hp'].
        rewrite G2; [exact Hc'|]. intros ->. apply (c_dom _ _ _ _ C) in Hv; congruence. }
    now apply Q. }
  assert (Hview2 : view HL (heads v2) h = V' h).
  { apply (c_head _ _ _ _ C2 h nh); auto. }
  (* the last part, from a state in which h is still a root *)
  assert (Last : forall w sw, core0 V' w sw -> tidy None w sw -> up sw tag [tag] -> ~ In h [tag] ->
     (exists n, dget sw h = Some n /\ parent n = None) ->
     (exists n, dget sw tag = Some n /\ base n = Some h) ->
     exists w1 w2 w3 s3,
     vbind HS DS TR (look HS DS TR (fun v => s_get HS (heads v) h)) (fun head_version =>
     vbind HS DS TR (look HS DS TR (fun _ => Versions.make_changeset re_w tk b head_version)) (fun cs =>
     add_edge HS DS TR tag h cs)) w = ([w1; w2; w3], (w3, Ok tt)) /\
     core0 V' w1 sw /\ core0 V' w2 s3 /\ core0 V' w3 s3 /\ tidy None w3 s3 /\ reparented sw s3 h tag).
  { intros w sw Cw Tw Hu Hn [n [Hnw Hpw]] [nt [Hnt Hbt]].
    pose proof (c_ok _ _ _ _ Cw tag b V't) as S1. pose proof (c_ok _ _ _ _ Cw h bh V'h) as S2.
    destruct (edge_total b bh S1 S2) as [items [d [Hm _]]].
    destruct (add_edge_ok V' w sw tag h n nt [tag] b bh items Cw Tw Hnw Hnt Hu Hn) as
      [w1 [w2 [w3 [s3 [He [D1 [D2 [D3 [D4 [D5 _]]]]]]]]]]; auto.
    { unfold slot_free; rewrite Hpw; exact Hbt. }
    rewrite Hpw in *. exists w1, w2, w3, s3. split; [|auto].
    erewrite vbind_ok; [|unfold look; rewrite (view_get _ HL), (c_head _ _ _ _ Cw h n Hnw Hpw), V'h; reflexivity|].
    2:{ erewrite vbind_ok; [|unfold look; rewrite Hm; reflexivity|exact He]. reflexivity. }
    reflexivity. }
  (* putting the parts together *)
  assert (Whole : forall tr0 v0 r, 
     vbind HS DS TR (if teq sp h then vret HS DS TR tt else
           vbind HS DS TR (look HS DS TR (fun v => retrieve_using_path re_w tk HS DS TR v p)) (fun split_version =>
           vbind HS DS TR (look HS DS TR (fun _ => Versions.make_changeset re_w tk b split_version)) (fun cs =>
           vbind HS DS TR (add_edge HS DS TR tag sp cs) (fun _ =>
           on_tree HS DS TR (tr_change_parent TR sp tag))))) (fun _ =>
     vbind HS DS TR (look HS DS TR (fun v => s_get HS (heads v) h)) (fun head_version =>
     vbind HS DS TR (look HS DS TR (fun _ => Versions.make_changeset re_w tk b head_version)) (fun cs =>
     add_edge HS DS TR tag h cs))) v2 = (tr0, (v0, r)) ->
     add tag b (Some h) v = ([v1; v2] ++ tr0, (v0, r))).
  { intros tr0 v0 r H. unfold Versions.add. erewrite vbind_ok; [|reflexivity|].
    2:{ erewrite vbind_ok; [|unfold on_tree; cbn [tree]; rewrite Ha; reflexivity|].
        2:{ erewrite vbind_ok; [|unfold look; cbn [tree]; cbn [tree v2] in Hsp; rewrite Hsp; reflexivity|exact H]. reflexivity. }
        reflexivity. }
    reflexivity. }
  assert (Hnin : ~ In h [tag]) by (intros [Hx|[]]; congruence).
  destruct (teq_spec sp h) as [Hsph|Hsph].
  - destruct (Last v2 s2 C2 T2 Hut2 Hnin) as [w1 [w2 [w3 [s3 [He [D1 [D2 [D3 [D4 D5]]]]]]]]].
    { exists nh; auto. } { eexists; split; [exact G1|reflexivity]. }
    exists [v1; v2; w1; w2; w3], w3, s3. split; [|split; [exact D3|split; [exact D4|]]].
    { apply Whole. erewrite vbind_ok; [|reflexivity|exact He]. reflexivity. }
    destruct (reparented_get _ _ _ _ _ _ D5 G1) as [nt [Ht1 [Ht2 Ht3]]].
    destruct (teq_spec h tag) as [|_]; [congruence|]. cbn in Ht2, Ht3.
    split; [exists nt; auto|].
    split; [apply (reparented_child _ _ _ _ h tag D5); left; repeat split; congruence|].
    split.
    { intros u m Hu Hm. destruct (reparented_get' _ _ _ _ _ _ D5 Hm) as [n [Hn [Hp Hb]]].
      rewrite G2 in Hn by exact Hu. exists n; split; [exact Hn|]. split; [exact Hb|].
      rewrite Hp. destruct (teq_spec h u); split; congruence. }
    exists sp. split; [reflexivity|]. split; [congruence|]. split; [exists p; auto|].
    split.
    { intros c q. rewrite (reparented_child _ _ _ _ c q D5), Hch2, Hsph. split.
      - intros [[-> [-> _]]|[Hc Hq]]; [left; auto|right; auto].
      - intros [[-> [-> | ->]]|[Hc [_ Hq]]]; [left; repeat split; congruence|left; repeat split; congruence|right; auto]. }
    split; [|split; [congruence|eapply reparented_ordered; exact D5]].
    intros i w Hi _. do 5 (destruct i as [|i]; [injection Hi as <-; eauto|]). now destruct i.
  - (* with a split *)
    destruct (retrieve_ok None V' v2 s2 h p C2 Hdn Hview2) as [bs [Bs Hret]]; [congruence|discriminate| |].
    { destruct Hk as [Hk|[Hk|Hk]]; [now left|right; left; now apply Hk|right; right].
      intros c q bc bq Hc Bc Bq. apply Hch2 in Hc. apply (Hk c q); [exact Hc| |].
      - revert Bc; unfold V', upd. destruct (teq_spec tag c) as [<-|]; [|auto].
        destruct Hc as [n [Hn _]]. apply (c_dom _ _ _ _ C) in Hv; congruence.
      - revert Bq; unfold V', upd. destruct (teq_spec tag q) as [<-|]; [|auto].
        apply (child_known V v s None) in Hc; [|exact C]. apply (c_dom _ _ _ _ C) in Hv; contradiction. }
    rewrite Hl in Bs.
    assert (Huh : up s2 h [h]) by (eapply up_root; eauto).
    destruct (down_up_chain s2 h p Hdn [h] Huh) as [l' [Hul [_ [Hlt _]]]]. rewrite Hl in Hul.
    assert (Hspt : sp <> tag).
    { intros ->. pose proof (up_fun _ _ _ Hul _ Hut2) as Hx. 
      destruct l' as [|y l']; cbn in Hx; [injection Hx; congruence|]. destruct l'; discriminate. }
    destruct (dget s2 sp) as [nsp|] eqn:Hnsp; [|now apply up_known in Hul].
    assert (Hpsp : exists q0, parent nsp = Some q0).
    { destruct (parent nsp) as [q0|] eqn:Hq0; [eauto|exfalso].
      pose proof (up_fun _ _ _ Hul _ (up_root s2 sp nsp Hnsp Hq0)) as Hx.
      destruct l' as [|y l']; cbn in Hx; [injection Hx; congruence|]. destruct l'; discriminate. }
    destruct Hpsp as [q0 Hpsp].
    assert (Hnin2 : ~ In sp [tag]) by (intros [Hx|[]]; congruence).
    pose proof (c_ok _ _ _ _ C2 tag b V't) as S1. pose proof (c_ok _ _ _ _ C2 sp bs Bs) as S2.
    destruct (edge_total b bs S1 S2) as [items [d [Hm _]]].
    destruct (add_edge_ok V' v2 s2 tag sp nsp _ [tag] b bs items C2 T2 Hnsp G1 Hut2 Hnin2)
      as [v3 [_v [v4 [s4 [He1 [C3 [_ [C4 [T4 [P4 [d4 [Hd4 Ed4]]]]]]]]]]]]; auto.
    { unfold slot_free; rewrite Hpsp; cbn. split; [congruence|]. intros c Hc; now apply Nc2 in Hc. }
    rewrite Hpsp in He1, C3.
    destruct (reparented_get _ _ _ _ _ _ P4 Hnsp) as [nsp4 [Hn4 [Hp4 Hb4]]]. rewrite teq_refl in Hp4.
    destruct (reparented_get _ _ _ _ _ _ P4 G1) as [nt4 [Ht4 [Hpt4 Hbt4]]]. 
    assert (Hst4 : teq sp tag = false) by (destruct (teq_spec sp tag); congruence). rewrite Hst4 in Hpt4. cbn in Hpt4, Hbt4.
    assert (Hut4 : up s4 tag [tag]) by (eapply up_root; eauto).
    destruct (move_core None V' v4 s4 tag sp nsp4 nt4 [tag] b bs d4 C4) as [t5 [s5 [Ht5 [C5 P5]]]]; auto.
    { right; unfold slot_free; rewrite Hp4. split; [congruence|]. intros c Hc.
      apply (reparented_child _ _ _ _ c tag P4) in Hc as [[-> _]|[_ Hc]]; [reflexivity|now apply Nc2 in Hc]. }
    set (v5 := mkV (heads v4) (diffs v4) t5) in *. cbn zeta in C5.
    assert (T5 : tidy None v5 s5).
    { intros t _. destruct (T4 t) as [A B]; [discriminate|]. cbn. split; intros H.
      - destruct (A H) as [n [Hn Hp]]. destruct (reparented_get _ _ _ _ _ _ P5 Hn) as [m [Hm1 [Hm2 _]]].
        exists m; split; [exact Hm1|]. destruct (teq_spec sp t) as [<-|]; congruence.
      - destruct (B H) as [n [Hn Hp]]. destruct (reparented_get _ _ _ _ _ _ P5 Hn) as [m [Hm1 [Hm2 _]]].
        exists m; split; [exact Hm1|]. destruct (teq_spec sp t); congruence. }
    destruct (reparented_get _ _ _ _ _ _ P4 Hnh2) as [nh4 [Hnh4 [Hph4 _]]].
    assert (Hsh : teq sp h = false) by (destruct (teq_spec sp h); congruence). rewrite Hsh in Hph4.
    destruct (reparented_get _ _ _ _ _ _ P5 Hnh4) as [nh5 [Hnh5 [Hph5 _]]]. rewrite Hsh in Hph5.
    destruct (reparented_get _ _ _ _ _ _ P5 Ht4) as [nt5 [Hnt5 [Hpt5 Hbt5]]]. rewrite Hst4 in Hpt5.
    assert (Hut5 : up s5 tag [tag]) by (eapply up_root; [exact Hnt5|congruence]).
    destruct (Last v5 s5 C5 T5 Hut5 Hnin) as [w1 [w2 [w3 [s6 [He [D1 [D2 [D3 [D4 D5]]]]]]]]].
    { exists nh5; split; congruence. } { exists nt5; split; congruence. }
    exists [v1; v2; v3; v4; v5; w1; w2; w3], w3, s6. split; [|split; [exact D3|split; [exact D4|]]].
    { apply Whole. erewrite vbind_ok; [| |exact He].
      2:{ erewrite vbind_ok; [|unfold look; rewrite Hret; reflexivity|].
          2:{ erewrite vbind_ok; [|unfold look; rewrite Hm; reflexivity|].
              2:{ erewrite vbind_ok; [|exact He1|].
                  2:{ unfold on_tree. rewrite Ht5. fold v5. reflexivity. }
                  reflexivity. }
              reflexivity. }
          reflexivity. }
      reflexivity. }
    destruct (reparented_get _ _ _ _ _ _ D5 Hnt5) as [nt [Ht1 [Ht2 Ht3]]].
    destruct (teq_spec h tag) as [|_]; [congruence|].
    split; [exists nt; repeat split; congruence|].
    split; [apply (reparented_child _ _ _ _ h tag D5); left; repeat split; congruence|].
    split.
    { intros u m Hu Hmu. destruct (reparented_get' _ _ _ _ _ _ D5 Hmu) as [n5 [Hn5 [Hp5 Hb5]]].
      destruct (reparented_get' _ _ _ _ _ _ P5 Hn5) as [n4 [Hn4' [Hp4' Hb4']]].
      destruct (reparented_get' _ _ _ _ _ _ P4 Hn4') as [n2 [Hn2 [Hp2 Hb2]]].
      assert (Hn2s : dget s u = Some n2) by (rewrite <- G2; auto).
      exists n2; split; [exact Hn2s|]. split; [congruence|].
      rewrite Hp5, Hp4', Hp2. destruct (teq_spec h u), (teq_spec sp u); subst; split; try congruence. }
    exists sp. split; [congruence|]. split; [reflexivity|]. split; [exists p; auto|].
    split.
    { intros c q. rewrite (reparented_child _ _ _ _ c q D5), (reparented_child _ _ _ _ c q P5),
        (reparented_child _ _ _ _ c q P4), Hch2. split.
      - intros [[-> [-> _]]|[Hc [[-> [-> _]]|[Hc' [[-> [-> _]]|[_ Hq]]]]]]; [left; auto|left; auto|left; auto|right; auto].
      - intros [[-> [-> | ->]]|[Hc [Hc' Hq]]].
        + left; repeat split; congruence.
        + right; split; [congruence|]. left; repeat split; congruence.
        + right; split; [exact Hc|]. right; split; [exact Hc'|]. right; auto. }
    split.
    + intros i w Hi Hi2.
      destruct i as [|[|[|i]]]; [injection Hi as <-; eauto|injection Hi as <-; eauto| |].
      { destruct Hi2 as [Hi2|Hi2]; [now destruct Hi2|contradiction]. }
      cbn [nth_error] in Hi. do 5 (destruct i as [|i]; [injection Hi as <-; eauto|]). now destruct i.
    + split; [intros _ w Hw; injection Hw as <-; exact C3|].
      eapply ordered_trans; [eapply reparented_ordered; exact P4|].
      eapply ordered_trans; [eapply reparented_ordered; exact P5|eapply reparented_ordered; exact D5].
Qed.
End Inv.
