(** Calls of [add] and [get] at the same time. *)
From Coq Require Import ZArith Lia Permutation.
From Verif Require Import Base SpecSeq Changesets Serialize SpecSerialize
  Tokenizers SpecTokenizers TokenizersProofs TokenizersDiff Tree SpecTree TreeProofs
  Versions SpecVersions VersionsPatch VersionsInv VersionsProofs Concurrent.

(** * A call alone, and all calls to the end *)
Section Programs.
Context {K : Type} {E : Teq K}.
Variable re_w : Z -> bool.
Variable tk : tkind.
Variables HS DS : store K.
Variable TR : tree_impl K.
Notation vstate := (@vstate K HS DS TR).
Notation prog := (prog HS DS TR).
Notation alone := (alone HS DS TR).
Notation pbind := (pbind HS DS TR).
Notation atom := (atom HS DS TR).

Lemma alone_bind {A B} (p : prog A) (g : A -> prog B) v : alone (pbind p g) v =
  match alone p v with (v', Ok a) => alone (g a) v' | (v', Err e) => (v', Err e) end.
Proof.
  revert v; induction p as [[a|e]|f k IH]; intros v; cbn [Concurrent.pbind Concurrent.alone]; [reflexivity|reflexivity|].
  apply IH.
Qed.
Lemma alone_atom {A} (m : vm HS DS TR A) v : alone (atom m) v = snd (m v).
Proof. cbn. now destruct (m v) as [tr [v' r]]. Qed.
Lemma snd_vbind {A B} (m : vm HS DS TR A) (f : A -> vm HS DS TR B) v : snd (vbind HS DS TR m f v) =
  match snd (m v) with (v', Ok a) => snd (f a v') | (v', Err e) => (v', Err e) end.
Proof. unfold vbind. destruct (m v) as [tr [v' [a|e]]]; cbn; [|reflexivity]. now destruct (f a v') as [tr' r]. Qed.
Lemma alone_vbind {A B} (p : prog A) m (g : A -> prog B) f v :
  (forall v, alone p v = snd (m v)) -> (forall a v, alone (g a) v = snd (f a v)) ->
  alone (pbind p g) v = snd (vbind HS DS TR m f v).
Proof.
  intros H1 H2. rewrite alone_bind, snd_vbind, H1. destruct (snd (m v)) as [v' [a|e]]; auto.
Qed.
Lemma alone_ret {A} (r : res A) v : alone (Ret r) v = snd (look HS DS TR (fun _ => r) v).
Proof. reflexivity. Qed.

Lemma retrieve_loop_alone v path : forall st toks,
  alone (retrieve_loop_p re_w tk HS DS TR st toks path) v = (v, retrieve_loop re_w tk HS DS TR v st toks path).
Proof.
  induction path as [|t path IH]; intros st toks; cbn [retrieve_loop_p retrieve_loop]; [reflexivity|].
  rewrite alone_bind, alone_atom. unfold look; cbn [snd]. destruct (s_get DS (diffs v) t) as [d|e]; cbn [bind]; [|reflexivity].
  destruct (deserialize_changeset d) as [items stop]. destruct (encode_items re_w tk st items) as [st' [pt|e]]; cbn [bind]; [|reflexivity].
  destruct stop; [reflexivity|apply IH].
Qed.
Lemma retrieve_alone v path :
  alone (retrieve_p re_w tk HS DS TR path) v = (v, retrieve_using_path re_w tk HS DS TR v path).
Proof.
  destruct path as [|r path]; [reflexivity|]. cbn [retrieve_p retrieve_using_path].
  rewrite alone_bind, alone_atom. unfold look; cbn [snd]. destruct (s_get HS (heads v) r) as [b|e]; cbn [bind]; [|reflexivity].
  destruct (encode re_w tk new_tokenizer (CBytes b)) as [st [toks|e]]; cbn [bind]; [|reflexivity].
  apply retrieve_loop_alone.
Qed.
Theorem get_alone v t : alone (get_p re_w tk HS DS TR t) v = (v, get re_w tk HS DS TR v t).
Proof.
  unfold get_p, get. rewrite alone_bind, alone_atom. unfold look; cbn [snd].
  destruct (tr_path_to TR (tree v) t) as [[[|r p]|]|e]; cbn [bind]; try reflexivity.
  rewrite alone_bind, retrieve_alone. now destruct (retrieve_using_path re_w tk HS DS TR v (r :: p)).
Qed.
Lemma add_edge_alone q c cs v : alone (add_edge_p HS DS TR q c cs) v = snd (add_edge HS DS TR q c cs v).
Proof.
  unfold add_edge_p, add_edge. apply alone_vbind; [intros; apply alone_ret|]. intros d u.
  apply alone_vbind; [intros; apply alone_atom|]. intros _ u1.
  apply alone_vbind; [intros; apply alone_atom|]. intros _ u2.
  apply alone_vbind; [intros; apply alone_atom|]. intros [] u3; [apply alone_atom|reflexivity].
Qed.
Theorem add_alone t b base v : alone (add_p re_w tk HS DS TR t b base) v = snd (add re_w tk HS DS TR t b base v).
Proof.
  unfold add_p, add. apply alone_vbind; [intros; apply alone_atom|]. intros _ v1.
  apply alone_vbind; [intros; apply alone_atom|]. intros _ v2.
  destruct base as [x|]; [|reflexivity]. unfold split_p.
  apply alone_vbind; [intros; apply alone_atom|]. intros sp v3.
  apply alone_vbind.
  - intros v4. destruct (teq (fst sp) x); [reflexivity|]. unfold move_p.
    apply alone_vbind; [intros; apply retrieve_alone|]. intros sv v5.
    apply alone_vbind; [intros; apply alone_ret|]. intros cs v6.
    apply alone_vbind; [intros; apply add_edge_alone|]. intros _ v7. apply alone_atom.
  - intros _ v4. unfold last_p. apply alone_vbind; [intros; apply alone_atom|]. intros hv v5.
    apply alone_vbind; [intros; apply alone_ret|]. intros cs v6. apply add_edge_alone.
Qed.

(** every order of steps ends *)
Notation move := (move HS DS TR).
Definition next (ps' ps : list (prog answer)) : Prop :=
  exists i f k v, nth_error ps i = Some (Step f k) /\ ps' = put i (k v) ps.
Lemma next_ends p : forall ps, Acc next ps -> Acc next (p :: ps).
Proof.
  induction p as [r|f k IH]; intros ps H; induction H as [ps Hp IHp]; constructor; intros ps' [i [f' [k' [v [Hi ->]]]]];
    (destruct i as [|i]; cbn [nth_error put] in *; [|apply IHp; exists i, f', k', v; auto]).
  - discriminate.
  - assert (k' = k) by congruence. subst. apply IH. now constructor.
Qed.
Theorem moves_end c : Acc (fun c' c => move c c') c.
Proof.
  destruct c as [v ps]. assert (H : Acc next ps).
  { induction ps as [|p ps IH]; [|now apply next_ends]. constructor. intros ps' [i [f [k [w [Hi _]]]]]. destruct i; discriminate. }
  revert v; induction H as [ps _ IH]; intros v. constructor. intros c' M. inversion M as [? ? i f k Hi]; subst.
  apply IH. exists i, f, k, v; auto.
Qed.
(** a call that has not returned can go on *)
Theorem moves_on v ps i p : nth_error ps i = Some p -> ~ returned HS DS TR p -> exists c', move (v, ps) c'.
Proof.
  intros H Hr. destruct p as [r|f k]; [exfalso; apply Hr; exact I|]. eexists. econstructor; exact H.
Qed.
Lemma turn_moves i c : moves HS DS TR c (turn HS DS TR i c).
Proof.
  destruct c as [v ps]; unfold turn; cbn [fst snd]. destruct (nth_error ps i) as [[r|f k]|] eqn:H; try constructor.
  eapply moves_more; [constructor|]. now constructor.
Qed.
Lemma moves_trans c c' c'' : moves HS DS TR c c' -> moves HS DS TR c' c'' -> moves HS DS TR c c''.
Proof.
  intros H H2; revert H; induction H2 as [c'|c1 c2 c3 M IH L]; intros H; [exact H|].
  eapply moves_more; [now apply IH|exact L].
Qed.
Theorem turns_moves order : forall c, moves HS DS TR c (turns HS DS TR order c).
Proof.
  induction order as [|i order IH]; intros c; [constructor|]. cbn [turns fold_left].
  eapply moves_trans; [apply turn_moves|apply IH].
Qed.
End Programs.

(** * Adds on different lines *)
Section Lines.
Context {K : Type} {E : Teq K} {O : TeqOk K}.
Variable re_w : Z -> bool.
Variable tk : tkind.
Variables HS DS : store K.
Variable TR : tree_impl K.
Variable HL : store_law HS.
Variable DL : store_law DS.
Variable TL : tree_law TR.
Notation vstate := (@vstate K HS DS TR).
Notation prog := (prog HS DS TR).
Notation pbind := (pbind HS DS TR).
Notation atom := (atom HS DS TR).
Notation look := (look HS DS TR).
Notation on_tree := (on_tree HS DS TR).
Notation edge_bytes := (edge_bytes re_w tk).
Notation make_changeset := (make_changeset re_w tk).
Notation hv v := (view HL (heads v)).
Notation dv v := (view DL (diffs v)).

Variable h : list (adding K).
Variable new : list (adding K).
Variable own : K -> K.
Hypothesis Hk : tk <> KLine.
Hypothesis F : fresh tk (h ++ new).
Hypothesis Hbase : forall x, In (Some x) (map base_of new) -> is_head h x.
Hypothesis own_some : forall t b x, In (t, b, Some x) new -> own t = x /\ own x = x.
Hypothesis own_none : forall t b, In (t, b, None) new -> own t = t.
Hypothesis own_one : forall a a', In a new -> In a' new -> own (tag_of a) = own (tag_of a') -> a = a'.

Definition V : K -> option (list Z) := V_of (h ++ new).

Definition tag_ok (v : vstate) (s : nodes K) (u : K) : Prop :=
  match dget s u with
  | None => hv v u = None /\ dv v u = None
  | Some n =>
    match parent n with
    | None => hv v u = V u /\ dv v u = None
    | Some q => hv v u = None /\ exists d bq bu, dv v u = Some d /\ V q = Some bq /\ V u = Some bu /\ edge_bytes bq bu d
    end
  end.
(** the line of [o]: which of its tags are roots, and that its tags are stored as they should be, but for [X] *)
Definition line_ok v s (o : K) (R X : K -> Prop) : Prop := forall u, own u = o ->
  (forall n, dget s u = Some n -> (parent n = None <-> R u)) /\ (~ X u -> tag_ok v s u).
Definition nobody : K -> Prop := fun _ => False.

Record glob (done : list (adding K)) (v : vstate) (s : nodes K) : Prop := {
  g_rep : rep TL (tree v) s;
  g_fine : fine HL (heads v) /\ fine DL (diffs v);
  g_own : forall c q, child_of s c q -> own c = own q;
  g_done : incl done new;
  g_keys : dkeys s = map tag_of (h ++ done);
  g_order : forall t n, dget s t = Some n -> nth_error (map tag_of (h ++ done)) (order_id n) = Some t;
  g_base : forall t b base, In (t, b, base) (h ++ done) -> exists n, dget s t = Some n /\ Tree.base n = base;
  g_par : forall c q, child_of s c q -> exists b x, In (q, b, Some x) (h ++ done)
}.

(** ** What is known of the tags *)
Lemma nodup_h : NoDup (map tag_of (h ++ new)). Proof. apply F. Qed.
Lemma V_new t b base : In (t, b, base) new -> V t = Some b.
Proof. intros H; apply (V_of_In (h ++ new) t b base nodup_h). apply in_or_app; now right. Qed.
Lemma V_old t b base : In (t, b, base) h -> V t = Some b.
Proof. intros H; apply (V_of_In (h ++ new) t b base nodup_h). apply in_or_app; now left. Qed.
Lemma V_storable t b : V t = Some b -> storable tk b.
Proof.
  intros H. destruct (V_of_some _ _ _ H) as [base Hin]. destruct F as [_ FF].
  rewrite Forall_forall in FF. apply (FF _ Hin).
Qed.
Lemma new_not_old a : In a new -> ~ added h (tag_of a).
Proof.
  intros Ha Hh. pose proof nodup_h as N. rewrite map_app in N.
  apply in_split in Ha as [l1 [l2 Hn]]. rewrite Hn, map_app in N; cbn in N. rewrite app_assoc in N.
  apply NoDup_remove_2 in N. apply N. rewrite !in_app_iff. now left; left.
Qed.
Lemma new_one a a' : In a new -> In a' new -> tag_of a = tag_of a' -> a = a'.
Proof. intros H1 H2 He; apply own_one; congruence. Qed.
Lemma base_known t b x : In (t, b, Some x) new -> is_head h x /\ added h x /\ x <> t.
Proof.
  intros H. assert (Hx : is_head h x) by (apply Hbase; apply (in_map base_of) in H; exact H).
  pose proof (is_head_added _ _ Hx) as Ha. split; [exact Hx|]. split; [exact Ha|].
  intros ->. apply (new_not_old _ H Ha).
Qed.
Lemma base_V t b x : In (t, b, Some x) new -> exists bx, V x = Some bx.
Proof.
  intros H; destruct (base_known _ _ _ H) as [_ [Ha _]]. destruct (added_In h x Ha) as [bx [bb Hin]].
  exists bx. eapply V_old; eauto.
Qed.
Lemma glob_known done v s u : glob done v s -> (dget s u <> None <-> added (h ++ done) u).
Proof.
  intros G. unfold added. rewrite <- (g_keys _ _ _ G). pose proof (dget_None s u) as H.
  destruct (dget s u) eqn:Hd; split; intros; try congruence.
  - apply dget_Some_key in Hd; exact Hd.
  - tauto.
Qed.
Lemma glob_V done v s u : glob done v s -> dget s u <> None -> exists b, V u = Some b.
Proof.
  intros G H. apply (glob_known done v s u G) in H. destruct (added_In _ _ H) as [b [bb Hin]]. exists b.
  apply in_app_or in Hin as [Hin|Hin]; [eapply V_old; eauto|eapply V_new; eauto; apply (g_done _ _ _ G); exact Hin].
Qed.
Lemma glob_old done v s u : glob done v s -> added h u -> exists n, dget s u = Some n.
Proof.
  intros G Ha. assert (H : dget s u <> None).
  { apply (glob_known done v s u G). unfold added in *. rewrite map_app, in_app_iff; now left. }
  destruct (dget s u); [eauto|congruence].
Qed.
Lemma glob_done done v s a : glob done v s -> In a new -> (dget s (tag_of a) <> None <-> In a done).
Proof.
  intros G Ha. rewrite (glob_known done v s _ G). unfold added; rewrite map_app, in_app_iff. split.
  - intros [H|H]; [exfalso; exact (new_not_old a Ha H)|]. apply in_map_iff in H as [a' [He Hin]].
    rewrite <- (new_one a' a); auto. now apply (g_done _ _ _ G).
  - intros H; right. now apply in_map.
Qed.
Lemma child_known' done v s c q : glob done v s -> child_of s c q -> dget s q <> None.
Proof.
  intros G [n [Hn Hp]]. destruct (rep_shape _ TL _ _ (g_rep _ _ _ G)) as [_ [FF _]].
  destruct (FF c) as [l Hl]; [congruence|]. inversion Hl as [? ? H1 H2|? ? ? ? H1 H2 H3]; subst.
  - congruence.
  - assert (Heq : q = q0) by congruence. subst. now apply up_known in H3.
Qed.

(** ** Steps of others *)
Definition pview (s : nodes K) (u : K) : option (option K) := option_map parent (dget s u).
Definition frame (o : K) (v : vstate) (s : nodes K) (v' : vstate) (s' : nodes K) : Prop := forall u, own u <> o ->
  hv v' u = hv v u /\ dv v' u = dv v u /\ pview s' u = pview s u.
Lemma pview_some s u q : pview s u = Some q <-> exists n, dget s u = Some n /\ parent n = q.
Proof.
  unfold pview. destruct (dget s u) as [n|]; cbn; split.
  - intros [= <-]; eauto. - intros [m [[= <-] <-]]; reflexivity.
  - discriminate. - intros [m [H _]]; discriminate.
Qed.
Lemma pview_none s u : pview s u = None <-> dget s u = None.
Proof. unfold pview. destruct (dget s u); cbn; split; congruence. Qed.
Lemma child_pview s c q : child_of s c q <-> pview s c = Some (Some q).
Proof. rewrite pview_some. reflexivity. Qed.
Lemma tag_ok_pview v s u : tag_ok v s u <->
  match pview s u with
  | None => hv v u = None /\ dv v u = None
  | Some None => hv v u = V u /\ dv v u = None
  | Some (Some q) => hv v u = None /\ exists d bq bu, dv v u = Some d /\ V q = Some bq /\ V u = Some bu /\ edge_bytes bq bu d
  end.
Proof. unfold tag_ok, pview. destruct (dget s u) as [n|]; cbn; [|tauto]. destruct (parent n); tauto. Qed.
Lemma roots_pview s u (P : Prop) : (forall n, dget s u = Some n -> (parent n = None <-> P)) <->
  match pview s u with None => True | Some None => P | Some (Some _) => ~ P end.
Proof.
  unfold pview. destruct (dget s u) as [n|]; cbn.
  - split.
    + intros H; specialize (H n eq_refl). destruct (parent n); [|tauto]. intros HP. apply H in HP; discriminate.
    + intros H m [= <-]. destruct (parent n); [|tauto]. split; [discriminate|tauto].
  - split; [auto|discriminate].
Qed.
Lemma line_frame o o' v s v' s' R X : o <> o' -> frame o' v s v' s' -> line_ok v s o R X -> line_ok v' s' o R X.
Proof.
  intros Ho Fr L u Hu. destruct (Fr u) as [F1 [F2 F3]]; [congruence|]. destruct (L u Hu) as [L1 L2].
  rewrite roots_pview in L1. rewrite tag_ok_pview in L2. rewrite roots_pview, tag_ok_pview, F1, F2, F3. auto.
Qed.
Lemma frame_refl o v s : frame o v s v s.
Proof. intros u _; auto. Qed.
Lemma line_weak v s o (R R' X X' : K -> Prop) : (forall u, own u = o -> dget s u <> None -> (R u <-> R' u)) ->
  (forall u, own u = o -> X u -> X' u) ->
  line_ok v s o R X -> line_ok v s o R' X'.
Proof.
  intros H1 H2 L u Hu. destruct (L u Hu) as [L1 L2]. split.
  - intros n Hn. rewrite (L1 n Hn). apply H1; congruence.
  - intros Hx; apply L2. intros C; apply Hx; now apply H2.
Qed.

(** ** Reading along a way down *)
Lemma down_own done v s t p : glob done v s -> down s t p -> forall u, In u p -> own u = own t.
Proof.
  intros G; induction 1 as [t H|t c p Hc Hd IH]; intros u [<-|Hu]; try reflexivity; [destruct Hu|].
  rewrite (IH u Hu). now apply (g_own _ _ _ G).
Qed.
Lemma retrieve_line done v s o R : glob done v s -> line_ok v s o R nobody -> forall t p, down s t p -> own t = o ->
  forall bt tst st toks, V t = Some bt -> texts re_w tk (CBytes bt) = Some tst ->
  st_ok st -> source_type st = Some SBytes -> ready tk st -> names tk st toks tst ->
  exists b, V (last p t) = Some b /\ retrieve_loop re_w tk HS DS TR v st toks (tl p) = Ok b.
Proof.
  intros G L t p Hd. induction Hd as [t Ht|t c p Hc Hd IH]; intros Ho bt tst st toks Hb Htx Hst S R' N.
  - exists bt; split; [exact Hb|]. cbn [tl retrieve_loop].
    rewrite (decode_names tk st toks tst R' N); cbn [bind]. rewrite raw_mk. apply texts_concat in Htx. now rewrite Htx.
  - destruct (down_cons _ _ _ Hd) as [p' ->]. cbn [tl] in *.
    assert (Hoc : own c = o) by (rewrite <- Ho; now apply (g_own _ _ _ G)).
    pose proof (proj2 (L c Hoc) (fun x => x)) as Tc. apply tag_ok_pview in Tc.
    rewrite (proj1 (child_pview s c t) Hc) in Tc. destruct Tc as [_ [d [bq [bc [Hd' [Hq [Hbc [items [Hm Hs]]]]]]]]].
    assert (bq = bt) by congruence; subst bq.
    pose proof (V_storable t bt Hb) as Sb. pose proof (V_storable c bc Hbc) as Sc.
    destruct (texts_encodable re_w tk (CBytes bc) (proj1 Sc)) as [tsc Htc].
    destruct (make_changeset_ok re_w tk bt bc tst tsc Sb Sc Htx Htc) as [items' [Hm' PB]].
    assert (items' = items) by congruence; subst items'.
    pose proof PB as [_ [d' [Hs' Hde]]]. assert (d' = d) by congruence; subst d'.
    destruct (replay_step re_w tk items tst tsc bc st toks PB Sc Htc Hst S R' N)
      as [st' [pt [tsc' [E1 [O1 [S1 [R1 [N1 [C1 K1]]]]]]]]].
    cbn [retrieve_loop]. rewrite (view_get _ DL), Hd'; cbn [bind]. rewrite Hde, E1; cbn [bind].
    assert (Lp : last (t :: c :: p') t = last (c :: p') c) by (change (last (t :: c :: p') t) with (last (c :: p') t); apply last_cons_any).
    rewrite Lp. rewrite (K1 Hk) in N1. now apply (IH Hoc bc tsc).
Qed.
Lemma retrieve_way done v s o R t p : glob done v s -> line_ok v s o R nobody -> down s t p -> own t = o -> R t ->
  exists b, V (last p t) = Some b /\ retrieve_using_path re_w tk HS DS TR v p = Ok b.
Proof.
  intros G L Hd Ho Hr. destruct (down_cons _ _ _ Hd) as [p' ->].
  assert (Hn : dget s t <> None).
  { inversion Hd as [? Hn|? ? ? Hc]; subst; [exact Hn|]. now apply (child_known' done v s c t G). }
  destruct (L t Ho) as [L1 L2]. specialize (L2 (fun x => x)). destruct (glob_V done v s t G Hn) as [bt Hb].
  unfold tag_ok in L2. destruct (dget s t) as [n|] eqn:Hdn; [|congruence].
  rewrite (proj2 (L1 n eq_refl) Hr) in L2. destruct L2 as [Hh _]. unfold retrieve_using_path.
  rewrite (view_get _ HL), Hh, Hb; cbn [bind].
  pose proof (V_storable t bt Hb) as Sb.
  destruct (texts_encodable re_w tk (CBytes bt) (proj1 Sb)) as [tst Htx].
  destruct (encode_ok re_w tk new_tokenizer (CBytes bt) tst new_ok (or_introl eq_refl) (proj1 (proj1 Sb)) Htx)
    as [s1 [toks [E1 [O1 [X1 [S1 [R1 N1]]]]]]].
  rewrite E1; cbn [bind]. now apply (retrieve_line done v s o R G L t (t :: p') Hd Ho bt tst s1 toks).
Qed.
(** what was read does not change when others write *)
Lemma retrieve_loop_frame o o' v s v' s' : o <> o' -> frame o' v s v' s' -> forall path st toks,
  (forall u, In u path -> own u = o) ->
  retrieve_loop re_w tk HS DS TR v' st toks path = retrieve_loop re_w tk HS DS TR v st toks path.
Proof.
  intros Ho Fr; induction path as [|c path IH]; intros st toks Hp; [reflexivity|]. cbn [retrieve_loop].
  rewrite !(view_get _ DL). destruct (Fr c) as [_ [-> _]]; [rewrite (Hp c); [congruence|now left]|].
  destruct (dv v c) as [d|]; cbn [bind]; [|reflexivity].
  destruct (deserialize_changeset d) as [items stop]. destruct (encode_items re_w tk st items) as [st' [pt|e]]; cbn [bind]; [|reflexivity].
  destruct stop; [reflexivity|]. apply IH. intros u Hu; apply Hp; now right.
Qed.
Lemma retrieve_frame o o' v s v' s' path : o <> o' -> frame o' v s v' s' -> (forall u, In u path -> own u = o) ->
  retrieve_using_path re_w tk HS DS TR v' path = retrieve_using_path re_w tk HS DS TR v path.
Proof.
  intros Ho Fr Hp. destruct path as [|r path]; [reflexivity|]. cbn [retrieve_using_path].
  rewrite !(view_get _ HL). destruct (Fr r) as [-> _]; [rewrite (Hp r); [congruence|now left]|].
  destruct (hv v r) as [d|]; cbn [bind]; [|reflexivity].
  destruct (encode re_w tk new_tokenizer (CBytes d)) as [st [toks|e]]; cbn [bind]; [|reflexivity].
  apply (retrieve_loop_frame o o' v s v' s' Ho Fr). intros u Hu; apply Hp; now right.
Qed.

(** ** An add on its way *)
Notation prog' := (prog answer).
Notation cp c t := (atom (on_tree (tr_change_parent TR c t))).
Notation "'start'" := (start re_w tk HS DS TR).
Definition fin : unit -> prog answer := fun _ => Ret (Ok Added).
Definition mem_del (c : K) : prog unit :=
  pbind (atom (look (fun v => Ok (s_mem HS (heads v) c)))) (fun b : bool =>
    if b then atom (del_head HS DS TR c) else Ret (Ok tt)).
Section One.
Variables (t : K) (b : list Z) (base : option K).
Definition q1 : prog answer := pbind (pbind (atom (on_tree (tr_add TR t base))) (fun _ =>
  match base with None => Ret (Ok tt) | Some x => split_p re_w tk HS DS TR t b x end)) fin.
Definition q2 x : prog answer := pbind (split_p re_w tk HS DS TR t b x) fin.
Definition g2 x : unit -> prog unit := fun _ => last_p re_w tk HS DS TR t b x.
Definition mv sp : list Z -> prog unit := fun sv =>
  pbind (Ret (make_changeset b sv)) (fun cs => pbind (add_edge_p HS DS TR t sp cs) (fun _ => cp sp t)).
Definition q3 x sp (r : prog (list Z)) : prog answer := pbind (pbind (pbind r (mv sp)) (g2 x)) fin.
Definition q5 x sp : prog answer :=
  pbind (pbind (pbind (pbind (cp sp t) (fun _ => mem_del sp)) (fun _ => cp sp t)) (g2 x)) fin.
Definition q6 x sp : prog answer := pbind (pbind (pbind (mem_del sp) (fun _ => cp sp t)) (g2 x)) fin.
Definition q6b x sp : prog answer := pbind (pbind (cp sp t) (g2 x)) fin.
Definition q7 x : prog answer := pbind (g2 x tt) fin.
Definition q8 x bx : prog answer :=
  pbind (pbind (Ret (make_changeset b bx)) (fun cs => add_edge_p HS DS TR t x cs)) fin.
Definition q9 x : prog answer := pbind (pbind (cp x t) (fun _ => mem_del x)) fin.
Definition q10 x : prog answer := pbind (mem_del x) fin.
Definition q11 x : prog answer := pbind (atom (del_head HS DS TR x)) fin.

Definition Rb u : Prop := is_head h u \/ u = t.
Definition Ra x u : Prop := (is_head h u /\ u <> x) \/ u = t.
(** [t] is a root with no other children than [c] *)
Definition top s (c : option K) : Prop := pview s t = Some None /\ forall u, child_of s u t -> Some u = c.
(** [sp] hangs below the line's head *)
Definition low s x sp : Prop := own sp = own t /\ sp <> x /\ exists q, pview s sp = Some (Some q).

Inductive phase : prog answer -> vstate -> nodes K -> Prop :=
| ph0 v s : pview s t = None -> line_ok v s (own t) Rb nobody -> phase (start (Add (t, b, base))) v s
| ph1 v s : pview s t = None -> hv v t = Some b -> dv v t = None -> line_ok v s (own t) Rb (eq t) ->
    phase q1 v s
| ph_none v s : base = None -> pview s t = Some None -> line_ok v s (own t) Rb nobody ->
    phase (Ret (Ok Added)) v s
| ph2 v s x : base = Some x -> top s None -> line_ok v s (own t) Rb nobody -> phase (q2 x) v s
| ph3a v s x sp path bs : base = Some x -> top s None -> line_ok v s (own t) Rb nobody -> low s x sp -> V sp = Some bs ->
    retrieve_using_path re_w tk HS DS TR v path = Ok bs -> (forall u, In u path -> own u = own t) ->
    phase (q3 x sp (retrieve_p re_w tk HS DS TR path)) v s
| ph3 v s x sp st toks path bs : base = Some x -> top s None -> line_ok v s (own t) Rb nobody -> low s x sp -> V sp = Some bs ->
    retrieve_loop re_w tk HS DS TR v st toks path = Ok bs -> (forall u, In u path -> own u = own t) ->
    phase (q3 x sp (retrieve_loop_p re_w tk HS DS TR st toks path)) v s
| ph5 v s x sp bs d : base = Some x -> top s None -> line_ok v s (own t) Rb (eq sp) -> low s x sp -> V sp = Some bs ->
    hv v sp = None -> dv v sp = Some d -> edge_bytes b bs d -> phase (q5 x sp) v s
| ph6 v s x sp : base = Some x -> top s (Some sp) -> line_ok v s (own t) Rb nobody -> low s x sp -> pview s sp = Some (Some t) ->
    phase (q6 x sp) v s
| ph6b v s x sp : base = Some x -> top s (Some sp) -> line_ok v s (own t) Rb nobody -> low s x sp -> pview s sp = Some (Some t) ->
    phase (q6b x sp) v s
| ph7 v s x : base = Some x -> pview s t = Some None -> line_ok v s (own t) Rb nobody -> phase (q7 x) v s
| ph8 v s x bx : base = Some x -> pview s t = Some None -> line_ok v s (own t) Rb nobody -> V x = Some bx -> phase (q8 x bx) v s
| ph9 v s x bx d : base = Some x -> pview s t = Some None -> line_ok v s (own t) Rb (eq x) -> V x = Some bx ->
    hv v x = Some bx -> dv v x = Some d -> edge_bytes b bx d -> phase (q9 x) v s
| ph10 v s x bx d : base = Some x -> pview s t = Some None -> line_ok v s (own t) (Ra x) (eq x) -> V x = Some bx ->
    pview s x = Some (Some t) -> hv v x = Some bx -> dv v x = Some d -> edge_bytes b bx d -> phase (q10 x) v s
| ph11 v s x bx d : base = Some x -> pview s t = Some None -> line_ok v s (own t) (Ra x) (eq x) -> V x = Some bx ->
    pview s x = Some (Some t) -> hv v x = Some bx -> dv v x = Some d -> edge_bytes b bx d -> phase (q11 x) v s
| ph12 v s x : base = Some x -> pview s t = Some None -> line_ok v s (own t) (Ra x) nobody -> phase (Ret (Ok Added)) v s.

Hypothesis Hin : In (t, b, base) new.

Lemma top_frame done v s v' s' o c : glob done v' s' -> own t <> o -> frame o v s v' s' -> top s c -> top s' c.
Proof.
  intros G Ho Fr [T1 T2]; split.
  - destruct (Fr t Ho) as [_ [_ ->]]; exact T1.
  - intros u Hu. pose proof (g_own _ _ _ G u t Hu) as Hou. apply child_pview in Hu.
    destruct (Fr u) as [_ [_ Hf]]; [congruence|]. apply T2, child_pview. congruence.
Qed.
Lemma low_frame v s v' s' o x sp : own t <> o -> frame o v s v' s' -> low s x sp -> low s' x sp.
Proof.
  intros Ho Fr [L1 [L2 [q L3]]]. split; [exact L1|]. split; [exact L2|]. exists q.
  destruct (Fr sp) as [_ [_ ->]]; [congruence|exact L3].
Qed.
Lemma phase_frame done pr v s v' s' o : glob done v' s' -> own t <> o -> frame o v s v' s' -> phase pr v s -> phase pr v' s'.
Proof.
  intros G Ho Fr P. pose proof (Fr t Ho) as [Ft1 [Ft2 Ft3]].
  assert (Fx : forall x, base = Some x -> hv v' x = hv v x /\ dv v' x = dv v x /\ pview s' x = pview s x).
  { intros x Hx. apply Fr. rewrite Hx in Hin. destruct (own_some _ _ _ Hin); congruence. }
  assert (Fs : forall x sp, low s x sp -> hv v' sp = hv v sp /\ dv v' sp = dv v sp /\ pview s' sp = pview s sp).
  { intros x sp L. apply Fr. rewrite (proj1 L). exact Ho. }
  assert (LF : forall R X, line_ok v s (own t) R X -> line_ok v' s' (own t) R X)
    by (intros R X; now apply line_frame with (o' := o)).
  assert (TF : forall c, top s c -> top s' c) by (intros c; now apply top_frame with (done := done) (v := v) (v' := v') (o := o)).
  assert (WF : forall x sp, low s x sp -> low s' x sp) by (intros x sp; now apply low_frame with (v := v) (v' := v') (o := o)).
  destruct P.
  - apply ph0; [congruence|auto].
  - apply ph1; [congruence|congruence|congruence|auto].
  - apply ph_none; [assumption|congruence|auto].
  - apply ph2; auto.
  - apply ph3a with (bs := bs); auto. rewrite (retrieve_frame (own t) o v s v' s' path Ho Fr); auto.
  - apply ph3 with (bs := bs); auto. rewrite (retrieve_loop_frame (own t) o v s v' s' Ho Fr); auto.
  - destruct (Fs x sp H2) as [S1 [S2 S3]]. apply ph5 with (bs := bs) (d := d); auto; congruence.
  - destruct (Fs x sp H2) as [S1 [S2 S3]]. apply ph6; auto; congruence.
  - destruct (Fs x sp H2) as [S1 [S2 S3]]. apply ph6b; auto; congruence.
  - apply ph7; auto; congruence.
  - apply ph8; auto; congruence.
  - destruct (Fx x H) as [S1 [S2 S3]]. apply ph9 with (bx := bx) (d := d); auto; congruence.
  - destruct (Fx x H) as [S1 [S2 S3]]. apply ph10 with (bx := bx) (d := d); auto; congruence.
  - destruct (Fx x H) as [S1 [S2 S3]]. apply ph11 with (bx := bx) (d := d); auto; congruence.
  - apply ph12 with (x := x); auto; congruence.
Qed.

(** *** its next step *)
Definition pf (p : prog answer) : vstate -> vstate := match p with Ret _ => fun v => v | Step f _ => f end.
Definition pk (p : prog answer) (v : vstate) : prog answer := match p with Ret r => Ret r | Step _ k => k v end.

Lemma line_update k v s v' s' o (R R' X X' : K -> Prop) : line_ok v s o R X ->
  (forall u, own u = o -> u <> k -> hv v' u = hv v u /\ dv v' u = dv v u /\ pview s' u = pview s u /\ (R u <-> R' u) /\ (X u -> X' u)) ->
  (own k = o -> match pview s' k with None => True | Some None => R' k | Some (Some _) => ~ R' k end /\ (~ X' k -> tag_ok v' s' k)) ->
  line_ok v' s' o R' X'.
Proof.
  intros L H1 H2 u Hu. destruct (teq_spec u k) as [->|Hne].
  - rewrite roots_pview. auto.
  - destruct (H1 u Hu Hne) as [A [B [C [D G]]]]. destruct (L u Hu) as [L1 L2].
    rewrite roots_pview in *. rewrite tag_ok_pview in *. rewrite A, B, C. split.
    + destruct (pview s u) as [[q|]|]; tauto.
    + intros Hx; apply L2; tauto.
Qed.
Lemma line_at v s o R X u : line_ok v s o R X -> own u = o ->
  match pview s u with None => True | Some None => R u | Some (Some _) => ~ R u end /\ (~ X u -> tag_ok v s u).
Proof. intros L Hu. destruct (L u Hu) as [L1 L2]. rewrite roots_pview in L1. auto. Qed.
Lemma frame_at k v s v' s' : (forall u, u <> k -> hv v' u = hv v u /\ dv v' u = dv v u /\ pview s' u = pview s u) ->
  frame (own k) v s v' s'.
Proof. intros H u Hu; apply H; intros ->; congruence. Qed.

Lemma glob_stores done v s hd df : glob done v s -> fine HL hd -> fine DL df -> glob done (mkV hd df (tree v)) s.
Proof. intros G H1 H2; split; try apply G. cbn; auto. Qed.
Lemma set_head_views k c (v : vstate) u : hv (mkV (s_set HS k c (heads v)) (diffs v) (tree v)) u = if teq k u then Some c else hv v u.
Proof. apply (view_set _ HL). Qed.
Lemma set_diff_views k c (v : vstate) u : dv (mkV (heads v) (s_set DS k c (diffs v)) (tree v)) u = if teq k u then Some c else dv v u.
Proof. apply (view_set _ DL). Qed.

Lemma glob_move done v s k x n0 nt : glob done v s -> base = Some x -> dget s t = Some nt -> parent nt = None ->
  dget s k = Some n0 -> k <> t -> own k = own t ->
  (parent n0 = None -> k = x) -> (parent n0 <> None -> k <> x /\ forall c, child_of s c t -> c = k) ->
  exists t' s', tr_change_parent TR k t (tree v) = (t', Ok tt) /\ glob done (mkV (heads v) (diffs v) t') s' /\
    (forall u, pview s' u = if teq k u then Some (Some t) else pview s u) /\
    (forall c q, child_of s' c q <-> (c = k /\ q = t) \/ (c <> k /\ child_of s c q)).
Proof.
  intros G Hb Ht Hpt Hkn Hkt Ho S1 S2.
  assert (Hd : In (t, b, base) done) by (apply (glob_done done v s _ G Hin); cbn; congruence).
  assert (Hbt : Tree.base nt = Some x).
  { destruct (g_base _ _ _ G t b base) as [n [Hn Hbn]]; [apply in_or_app; now right|]. congruence. }
  destruct (rep_move _ TL _ s k t n0 nt [t] (g_rep _ _ _ G) Hkn Ht) as [t' [s' [Hc [R P]]]].
  - eapply up_root; eauto.
  - intros [->|[]]; congruence.
  - right. unfold slot_free. destruct (parent n0) as [q|].
    + destruct (S2 ltac:(discriminate)) as [A B]. split; [congruence|exact B].
    + rewrite (S1 eq_refl). exact Hbt.
  - exists t', s'. split; [exact Hc|].
    assert (Ch : forall c q, child_of s' c q <-> (c = k /\ q = t) \/ (c <> k /\ child_of s c q)).
    { intros c q. rewrite (reparented_child _ _ _ _ c q P). split; intros [H|H]; auto; left; intuition congruence. }
    split; [|split; [|exact Ch]].
    + pose proof (reparented_ordered _ _ _ _ P) as [P1 P2]. split; cbn.
      * exact R.
      * apply G.
      * intros c q H. apply Ch in H as [[-> ->]|[_ H]]; [exact Ho|now apply (g_own _ _ _ G)].
      * apply G.
      * rewrite P1; apply G.
      * intros u n Hn. pose proof (P2 u) as Hu. rewrite Hn in Hu. cbn in Hu.
        destruct (dget s u) as [m|] eqn:Hm; [|discriminate]. injection Hu as ->. now apply (g_order _ _ _ G).
      * intros u c bb Hu. destruct (g_base _ _ _ G u c bb Hu) as [n [Hn Hbn]].
        destruct (reparented_get _ _ _ _ _ _ P Hn) as [m [Hm [_ Hbm]]]. exists m; split; congruence.
      * intros c q H. apply Ch in H as [[-> ->]|[_ H]]; [|now apply (g_par _ _ _ G c)].
        exists b, x. apply in_or_app; right. rewrite <- Hb. exact Hd.
    + intros u. unfold pview. destruct (dget s u) as [n|] eqn:Hn.
      * destruct (reparented_get _ _ _ _ _ _ P Hn) as [m [Hm [Hpm _]]]. rewrite Hm; cbn. rewrite Hpm.
        destruct (teq k u); reflexivity.
      * rewrite (proj1 (reparented_none _ _ _ _ u P) Hn). destruct (teq_spec k u); [congruence|reflexivity].
Qed.

Lemma glob_add done v s : glob done v s -> dget s t = None ->
  exists t' s', tr_add TR t base (tree v) = (t', Ok tt) /\ glob (done ++ [(t, b, base)]) (mkV (heads v) (diffs v) t') s' /\
    (forall u, pview s' u = if teq t u then Some None else pview s u) /\
    (forall c q, child_of s' c q <-> child_of s c q).
Proof.
  intros G Hn. destruct (rep_add _ TL _ s t base (g_rep _ _ _ G) Hn) as [t' [Ha R]].
  exists t', (fst (m_add t base s)). split; [exact Ha|].
  destruct (add_gets s t base Hn) as [D Kk].
  assert (Ch : forall c q, child_of (fst (m_add t base s)) c q <-> child_of s c q).
  { intros c q; unfold child_of. rewrite D. destruct (teq_spec t c) as [<-|Hc]; [|reflexivity].
    split; intros [n [Hn' Hp]]; [injection Hn' as <-; discriminate|congruence]. }
  split; [|split; [|exact Ch]].
  - split; cbn [heads diffs tree].
    + exact R.
    + apply G.
    + intros c q H; apply Ch in H. now apply (g_own _ _ _ G).
    + intros a Ha'. apply in_app_or in Ha' as [Ha'|[<-|[]]]; [now apply (g_done _ _ _ G)|exact Hin].
    + rewrite Kk, (g_keys _ _ _ G), !map_app, app_assoc; reflexivity.
    + intros u n. rewrite D, app_assoc, map_app. destruct (teq_spec t u) as [<-|Hu].
      * intros [= <-]. cbn [order_id].
        replace (length s) with (length (map tag_of (h ++ done))) by (rewrite <- (g_keys _ _ _ G); apply map_length).
        rewrite nth_error_app2, Nat.sub_diag by lia; reflexivity.
      * intros Hu'. rewrite nth_error_app1; [now apply (g_order _ _ _ G)|].
        apply nth_error_Some. rewrite (g_order _ _ _ G u n Hu'); discriminate.
    + intros u c bb Hu. rewrite D. rewrite app_assoc in Hu. apply in_app_or in Hu as [Hu|[Hu|[]]].
      * destruct (g_base _ _ _ G u c bb Hu) as [n [Hn' Hbn]]. destruct (teq_spec t u); [congruence|eauto].
      * injection Hu as -> -> ->. rewrite teq_refl. eexists; split; reflexivity.
    + intros c q H; apply Ch in H. destruct (g_par _ _ _ G c q H) as [c' [x' Hx]].
      exists c', x'. rewrite app_assoc. apply in_or_app; now left.
  - intros u. unfold pview. rewrite D. destruct (teq t u); reflexivity.
Qed.
Lemma down_last_child s x p : down s x p -> last p x <> x -> exists q, pview s (last p x) = Some (Some q).
Proof.
  intros Hd; induction Hd as [x H|x c p Hc Hd IH]; intros Hl; [now destruct Hl|].
  destruct (down_cons _ _ _ Hd) as [p' ->].
  assert (L : last (x :: c :: p') x = last (c :: p') c) by (change (last (x :: c :: p') x) with (last (c :: p') x); apply last_cons_any).
  rewrite L in *. destruct (teq_spec (last (c :: p') c) c) as [->|Hne]; [|now apply IH].
  exists x. now apply child_pview.
Qed.

Lemma phase_step done pr v s : glob done v s -> phase pr v s ->
  exists done' s', glob done' (pf pr v) s' /\ phase (pk pr v) (pf pr v) s' /\ frame (own t) v s (pf pr v) s'.
Proof.
  intros G P. pose proof (V_new t b base Hin) as HVt. destruct (g_fine _ _ _ G) as [GF1 GF2].
  assert (Hbx : forall x, base = Some x -> own x = own t /\ is_head h x /\ added h x /\ x <> t /\ exists bx, V x = Some bx).
  { intros x Hx. rewrite Hx in Hin. destruct (own_some _ _ _ Hin). destruct (base_known _ _ _ Hin) as [A [B C]].
    split; [congruence|]. pose proof (base_V _ _ _ Hin). auto. }
  assert (Same : forall pr', phase pr' v s -> exists done' s', glob done' v s' /\ phase pr' v s' /\ frame (own t) v s v s').
  { intros pr' P'. exists done, s. split; [exact G|]. split; [exact P'|apply frame_refl]. }
  assert (Roott : forall n, pview s t = Some None -> dget s t = Some n -> parent n = None).
  { intros n H Hn. unfold pview in H. rewrite Hn in H. cbn in H. congruence. }
  assert (Gett : pview s t = Some None -> exists n, dget s t = Some n /\ parent n = None).
  { intros H. now apply pview_some in H. }
  destruct P as [v s Ht L|v s Ht Hh Hd L|v s Hb Ht L|v s x Hb T L|v s x sp path bs Hb T L W Hs Hr Ho
                |v s x sp st toks path bs Hb T L W Hs Hr Ho|v s x sp bs d Hb T L W Hs Hh Hd He
                |v s x sp Hb T L W Hp|v s x sp Hb T L W Hp|v s x Hb Ht L|v s x bx Hb Ht L Hx
                |v s x bx d Hb Ht L Hx Hh Hd He|v s x bx d Hb Ht L Hx Hp Hh Hd He
                |v s x bx d Hb Ht L Hx Hp Hh Hd He|v s x Hb Ht L].
  - (* head_version[tag] = version *)
    exists done, s. cbn [Concurrent.start add_p Concurrent.pbind Concurrent.atom pf pk set_head fst snd].
    split; [apply glob_stores; [exact G|now apply fine_set|exact GF2]|].
    pose proof (proj2 (line_at _ _ _ _ _ t L eq_refl) (fun x => x)) as Tt. apply tag_ok_pview in Tt. rewrite Ht in Tt.
    split.
    + change (pbind _ fin) with q1. apply ph1; [exact Ht|rewrite set_head_views; now rewrite teq_refl|apply Tt|].
      apply (line_update t) with (1 := L).
      * intros u Hu Hne. rewrite set_head_views. destruct (teq_spec t u); [congruence|]. repeat split; auto; intros [].
      * intros _. rewrite Ht. split; [exact I|]. intros H; now destruct H.
    + apply frame_at. intros u Hne. rewrite set_head_views. destruct (teq_spec t u); [congruence|]. auto.
  - (* tree.add *)
    apply pview_none in Ht. destruct (glob_add done v s G Ht) as [t' [s' [Ha [G' [Pv Ch]]]]].
    exists (done ++ [(t, b, base)]), s'.
    assert (Ef : pf q1 v = mkV (heads v) (diffs v) t').
    { unfold q1. cbn [Concurrent.pbind Concurrent.atom pf]. unfold Versions.on_tree. now rewrite Ha. }
    rewrite Ef. split; [exact G'|].
    assert (L' : line_ok (mkV (heads v) (diffs v) t') s' (own t) Rb nobody).
    { apply (line_update t) with (1 := L).
      - intros u Hu Hne. rewrite Pv. destruct (teq_spec t u); [congruence|]. repeat split; auto; intros; congruence.
      - intros _. rewrite tag_ok_pview, Pv, teq_refl. split; [now right|]. intros _; cbn. split; congruence. }
    assert (Pt : pview s' t = Some None) by (rewrite Pv, teq_refl; reflexivity).
    split.
    + assert (Ek : pk q1 v = match base with None => Ret (Ok Added) | Some x => q2 x end).
      { unfold q1, q2. cbn [Concurrent.pbind Concurrent.atom pk]. unfold Versions.on_tree. rewrite Ha.
        cbn [fst snd Concurrent.pbind]. destruct base; reflexivity. }
      rewrite Ek. assert (Hcase : (exists x, base = Some x) \/ base = None) by (destruct base; eauto).
      destruct Hcase as [[x Hb]|Hb].
      * rewrite Hb at 1. apply ph2; [exact Hb| |exact L'].
        split; [exact Pt|]. intros u Hu. apply Ch in Hu. apply (child_known' done v s u t G) in Hu. contradiction.
      * rewrite Hb at 1. now apply ph_none.
    + apply frame_at. intros u Hne. rewrite Pv. destruct (teq_spec t u); [congruence|]. auto.
  - apply Same. now apply ph_none.
  - (* tree.get_split *)
    destruct (Hbx x Hb) as [Hox [Hhx [Hax [Hxt _]]]]. destruct (glob_old done v s x G Hax) as [nx Hnx].
    destruct (rep_split _ TL _ s x nx (g_rep _ _ _ G) Hnx) as [p [Hsp [Hw _]]].
    change (pf (q2 x) v) with v.
    assert (Ek : pk (q2 x) v = if teq (last p x) x then q7 x else q3 x (last p x) (retrieve_p re_w tk HS DS TR p)).
    { unfold q2, q7, q3. cbn [split_p Concurrent.pbind Concurrent.atom pk Versions.look fst snd]. rewrite Hsp.
      cbn [Concurrent.pbind fst snd]. destruct (teq (last p x) x); reflexivity. }
    rewrite Ek. apply Same. destruct (teq_spec (last p x) x) as [He|Hne].
    + apply ph7; [exact Hb|apply T|exact L].
    + assert (Hr : Rb x) by (now left).
      destruct (retrieve_way done v s (own t) Rb x p G L Hw Hox Hr) as [bs [HV Hret]].
      apply ph3a with (bs := bs); auto.
      * split; [rewrite <- Hox|split; [exact Hne|now apply down_last_child]].
        apply (down_own done v s x p G Hw). destruct (down_cons _ _ _ Hw) as [p' Hp'].
        rewrite Hp' at 2. destruct p' as [|y p'] using rev_ind; [left; now rewrite Hp'|].
        rewrite Hp', app_comm_cons, last_last. apply in_or_app; right; now left.
      * intros u Hu. rewrite <- Hox. now apply (down_own done v s x p G Hw).
  - (* the head is read *)
    destruct path as [|r path]; [discriminate|]. change (pf (q3 x sp _) v) with v.
    cbn [retrieve_using_path] in Hr.
    destruct (s_get HS (heads v) r) as [br|e] eqn:Hg; [|discriminate]. cbn [bind] in Hr.
    destruct (encode re_w tk new_tokenizer (CBytes br)) as [st [toks|e]] eqn:He; [|discriminate]. cbn [bind] in Hr.
    assert (Ek : pk (q3 x sp (retrieve_p re_w tk HS DS TR (r :: path))) v = q3 x sp (retrieve_loop_p re_w tk HS DS TR st toks path)).
    { unfold q3. cbn [retrieve_p Concurrent.pbind Concurrent.atom pk Versions.look fst snd]. rewrite Hg.
      cbn [Concurrent.pbind]. rewrite He. reflexivity. }
    rewrite Ek. apply Same. apply ph3 with (bs := bs); auto. intros u Hu; apply Ho; now right.
  - destruct path as [|c path].
    + (* diffs[split] = ... *)
      destruct (edge_total re_w tk b bs) as [items [d [Hm Hser]]]; [now apply (V_storable t)|now apply (V_storable sp)|].
      destruct W as [W1 [W2 [q W3]]].
      pose proof (line_at _ _ _ _ _ sp L W1) as [Rs Ts]. specialize (Ts (fun x => x)). apply tag_ok_pview in Ts. rewrite W3 in Rs, Ts.
      assert (Eq : q3 x sp (retrieve_loop_p re_w tk HS DS TR st toks []) =
                   Step (fun v => mkV (heads v) (s_set DS sp d (diffs v)) (tree v)) (fun _ => q5 x sp)).
      { cbn [retrieve_loop] in Hr. unfold q3. cbn [retrieve_loop_p]. rewrite Hr. unfold mv. cbn [Concurrent.pbind]. rewrite Hm.
        unfold add_edge_p. cbn [Concurrent.pbind]. rewrite Hser. reflexivity. }
      rewrite Eq. cbn [pf pk]. exists done, s.
      split; [apply glob_stores; [exact G|exact GF1|now apply fine_set]|].
      split.
      * apply ph5 with (bs := bs) (d := d); auto.
        -- apply (line_update sp) with (1 := L).
           ++ intros u Hu Hne. rewrite set_diff_views. destruct (teq_spec sp u); [congruence|]. repeat split; auto; intros [].
           ++ intros _. rewrite W3. split; [exact Rs|]. intros H; now destruct H.
        -- split; [exact W1|split; [exact W2|eauto]].
        -- cbn; apply Ts.
        -- rewrite set_diff_views, teq_refl; reflexivity.
        -- exists items; auto.
      * rewrite <- W1. apply frame_at. intros u Hne. rewrite set_diff_views. destruct (teq_spec sp u); [congruence|]. auto.
    + (* a diff is read *)
      change (pf (q3 x sp _) v) with v. cbn [retrieve_loop] in Hr.
      destruct (s_get DS (diffs v) c) as [dd|e] eqn:Hg; [|discriminate]. cbn [bind] in Hr.
      destruct (deserialize_changeset dd) as [items stop] eqn:Hde.
      destruct (encode_items re_w tk st items) as [st' [pt|e]] eqn:He; [|discriminate]. cbn [bind] in Hr.
      destruct stop; [discriminate|].
      assert (Ek : pk (q3 x sp (retrieve_loop_p re_w tk HS DS TR st toks (c :: path))) v =
                   q3 x sp (retrieve_loop_p re_w tk HS DS TR st' (apply pt toks) path)).
      { unfold q3. cbn [retrieve_loop_p Concurrent.pbind Concurrent.atom pk Versions.look fst snd]. rewrite Hg.
        cbn [Concurrent.pbind]. rewrite Hde, He. reflexivity. }
      rewrite Ek. apply Same. apply ph3 with (bs := bs); auto. intros u Hu; apply Ho; now right.
  - (* the split gets its new parent *)
    destruct T as [Tt Tc]. destruct (Gett Tt) as [nt [Hnt Hpt]]. destruct W as [W1 [W2 [q W3]]].
    destruct (proj1 (pview_some _ _ _) W3) as [n0 [Hn0 Hp0]].
    assert (Hst : sp <> t) by (intros ->; congruence).
    destruct (glob_move done v s sp x n0 nt G Hb Hnt Hpt Hn0 Hst W1) as [t' [s' [Hc [G' [Pv Ch]]]]].
    { congruence. } { intros _; split; [exact W2|]. intros c Hcc. specialize (Tc c Hcc). discriminate. }
    exists done, s'.
    assert (Ef : pf (q5 x sp) v = mkV (heads v) (diffs v) t').
    { unfold q5. cbn [Concurrent.pbind Concurrent.atom pf]. unfold Versions.on_tree. now rewrite Hc. }
    assert (Ek : pk (q5 x sp) v = q6 x sp).
    { unfold q5, q6. cbn [Concurrent.pbind Concurrent.atom pk]. unfold Versions.on_tree. rewrite Hc. reflexivity. }
    rewrite Ef, Ek. split; [exact G'|]. split.
    + pose proof (proj1 (line_at _ _ _ _ _ sp L W1)) as Rs. rewrite W3 in Rs.
      apply ph6; [exact Hb| | | |].
      * split; [rewrite Pv; destruct (teq_spec sp t); [congruence|exact Tt]|].
        intros u Hu. apply Ch in Hu as [[-> _]|[_ Hu]]; [reflexivity|]. specialize (Tc u Hu); discriminate.
      * apply (line_update sp) with (1 := L).
        -- intros u Hu Hne. rewrite Pv. destruct (teq_spec sp u); [congruence|]. repeat split; auto; intros; congruence.
        -- intros _. rewrite tag_ok_pview, Pv, teq_refl. split; [exact Rs|]. intros _; cbn. split; [exact Hh|].
           exists d, b, bs; auto.
      * split; [exact W1|split; [exact W2|]]. exists t. rewrite Pv, teq_refl; reflexivity.
      * rewrite Pv, teq_refl; reflexivity.
    + rewrite <- W1. apply frame_at. intros u Hne. rewrite Pv. destruct (teq_spec sp u); [congruence|]. auto.
  - (* the split is not a head *)
    pose proof (line_at _ _ _ _ _ sp L (proj1 W)) as [_ Ts]. specialize (Ts (fun x => x)). apply tag_ok_pview in Ts. rewrite Hp in Ts.
    change (pf (q6 x sp) v) with v.
    assert (Ek : pk (q6 x sp) v = q6b x sp).
    { unfold q6, q6b, mem_del. cbn [Concurrent.pbind Concurrent.atom pk Versions.look fst snd]. rewrite (view_mem _ HL), (proj1 Ts). reflexivity. }
    rewrite Ek. apply Same. now apply ph6b.
  - (* line 52 *)
    destruct T as [Tt Tc]. destruct (Gett Tt) as [nt [Hnt Hpt]]. destruct W as [W1 [W2 _]].
    destruct (proj1 (pview_some _ _ _) Hp) as [n0 [Hn0 Hp0]].
    assert (Hst : sp <> t) by (intros ->; congruence).
    destruct (glob_move done v s sp x n0 nt G Hb Hnt Hpt Hn0 Hst W1) as [t' [s' [Hc [G' [Pv Ch]]]]].
    { congruence. } { intros _; split; [exact W2|]. intros c Hcc. specialize (Tc c Hcc). congruence. }
    exists done, s'.
    assert (Ef : pf (q6b x sp) v = mkV (heads v) (diffs v) t').
    { unfold q6b. cbn [Concurrent.pbind Concurrent.atom pf]. unfold Versions.on_tree. now rewrite Hc. }
    assert (Ek : pk (q6b x sp) v = q7 x).
    { unfold q6b, q7. cbn [Concurrent.pbind Concurrent.atom pk]. unfold Versions.on_tree. rewrite Hc. reflexivity. }
    assert (Pv' : forall u, pview s' u = pview s u) by (intros u; rewrite Pv; destruct (teq_spec sp u); congruence).
    rewrite Ef, Ek. split; [exact G'|]. split.
    + apply ph7; [exact Hb|now rewrite Pv'|]. apply (line_update sp) with (1 := L).
      * intros u Hu Hne. rewrite Pv'. repeat split; auto.
      * intros _. pose proof (line_at _ _ _ _ _ sp L W1) as [A B]. rewrite tag_ok_pview in B. rewrite tag_ok_pview, !Pv'. auto.
    + intros u _. rewrite Pv'. auto.
  - (* the old head is read *)
    destruct (Hbx x Hb) as [Hox [Hhx [Hax [Hxt [bx Hx]]]]]. destruct (glob_old done v s x G Hax) as [nx Hnx].
    destruct (L x Hox) as [L1 L2]. specialize (L2 (fun x => x)). unfold tag_ok in L2. rewrite Hnx in L2.
    rewrite (proj2 (L1 nx Hnx) (or_introl Hhx)) in L2. destruct L2 as [Hh _].
    change (pf (q7 x) v) with v.
    assert (Ek : pk (q7 x) v = q8 x bx).
    { unfold q7, q8, g2, last_p. cbn [Concurrent.pbind Concurrent.atom pk Versions.look fst snd]. rewrite (view_get _ HL), Hh, Hx. reflexivity. }
    rewrite Ek. apply Same. now apply ph8.
  - (* diffs[existing_head] = ... *)
    destruct (Hbx x Hb) as [Hox [Hhx [Hax [Hxt _]]]]. destruct (glob_old done v s x G Hax) as [nx Hnx].
    destruct (L x Hox) as [L1 L2]. specialize (L2 (fun x => x)). unfold tag_ok in L2. rewrite Hnx in L2.
    pose proof (proj2 (L1 nx Hnx) (or_introl Hhx)) as Hpx. rewrite Hpx in L2. destruct L2 as [Hh Hd].
    assert (Px : pview s x = Some None) by (apply pview_some; eauto).
    destruct (edge_total re_w tk b bx) as [items [d [Hm Hser]]]; [now apply (V_storable t)|now apply (V_storable x)|].
    assert (Eq : q8 x bx = Step (fun v => mkV (heads v) (s_set DS x d (diffs v)) (tree v)) (fun _ => q9 x)).
    { unfold q8. cbn [Concurrent.pbind]. rewrite Hm. unfold add_edge_p. cbn [Concurrent.pbind]. rewrite Hser. reflexivity. }
    rewrite Eq. cbn [pf pk]. exists done, s.
    split; [apply glob_stores; [exact G|exact GF1|now apply fine_set]|].
    split.
    + apply ph9 with (bx := bx) (d := d); auto.
      * apply (line_update x) with (1 := L).
        -- intros u Hu Hne. rewrite set_diff_views. destruct (teq_spec x u); [congruence|]. repeat split; auto; intros [].
        -- intros _. rewrite Px. split; [now left|]. intros H; now destruct H.
      * cbn; congruence.
      * rewrite set_diff_views, teq_refl; reflexivity.
      * exists items; auto.
    + rewrite <- Hox. apply frame_at. intros u Hne. rewrite set_diff_views. destruct (teq_spec x u); [congruence|]. auto.
  - (* the old head gets its parent *)
    destruct (Hbx x Hb) as [Hox [Hhx [Hax [Hxt _]]]]. destruct (glob_old done v s x G Hax) as [nx Hnx].
    pose proof (proj2 (proj1 (L x Hox) nx Hnx) (or_introl Hhx)) as Hpx. destruct (Gett Ht) as [nt [Hnt Hpt]].
    destruct (glob_move done v s x x nx nt G Hb Hnt Hpt Hnx Hxt Hox) as [t' [s' [Hc [G' [Pv Ch]]]]].
    { auto. } { congruence. }
    exists done, s'.
    assert (Ef : pf (q9 x) v = mkV (heads v) (diffs v) t').
    { unfold q9. cbn [Concurrent.pbind Concurrent.atom pf]. unfold Versions.on_tree. now rewrite Hc. }
    assert (Ek : pk (q9 x) v = q10 x).
    { unfold q9, q10. cbn [Concurrent.pbind Concurrent.atom pk]. unfold Versions.on_tree. rewrite Hc. reflexivity. }
    rewrite Ef, Ek. split; [exact G'|]. split.
    + apply ph10 with (bx := bx) (d := d); auto.
      * rewrite Pv. destruct (teq_spec x t); [congruence|exact Ht].
      * apply (line_update x) with (1 := L).
        -- intros u Hu Hne. rewrite Pv. destruct (teq_spec x u); [congruence|]. unfold Ra, Rb. repeat split; auto; tauto.
        -- intros _. rewrite Pv, teq_refl. split; [unfold Ra; tauto|]. intros H; now destruct H.
      * rewrite Pv, teq_refl; reflexivity.
    + rewrite <- Hox. apply frame_at. intros u Hne. rewrite Pv. destruct (teq_spec x u); [congruence|]. auto.
  - (* it is among the heads *)
    change (pf (q10 x) v) with v.
    assert (Ek : pk (q10 x) v = q11 x).
    { unfold q10, q11, mem_del. cbn [Concurrent.pbind Concurrent.atom pk Versions.look fst snd]. rewrite (view_mem _ HL), Hh. reflexivity. }
    rewrite Ek. apply Same. now apply ph11 with (bx := bx) (d := d).
  - (* del head_version[existing_head] *)
    destruct (Hbx x Hb) as [Hox _].
    destruct (view_del _ HL (heads v) x GF1) as [hd [Hdel [Hf Hvd]]]; [congruence|].
    assert (Ef : pf (q11 x) v = mkV hd (diffs v) (tree v)).
    { unfold q11. cbn [Concurrent.pbind Concurrent.atom pf]. unfold del_head. now rewrite Hdel. }
    assert (Ek : pk (q11 x) v = Ret (Ok Added)).
    { unfold q11. cbn [Concurrent.pbind Concurrent.atom pk]. unfold del_head. rewrite Hdel. reflexivity. }
    rewrite Ef, Ek. exists done, s. split; [apply glob_stores; auto|]. split.
    + apply ph12 with (x := x); auto. apply (line_update x) with (1 := L).
      * intros u Hu Hne. cbn [heads diffs]. rewrite Hvd. destruct (teq_spec x u); [congruence|]. repeat split; auto; congruence.
      * intros _. rewrite tag_ok_pview, Hp. split; [pose proof (proj1 (line_at _ _ _ _ _ x L Hox)) as Rx; now rewrite Hp in Rx|].
        intros _. cbn [heads diffs]. rewrite Hvd, teq_refl. split; [reflexivity|]. exists d, b, bx; auto.
    + rewrite <- Hox. apply frame_at. intros u Hne. cbn [heads diffs]. rewrite Hvd. destruct (teq_spec x u); [congruence|]. auto.
  - apply Same. now apply ph12 with (x := x).
Qed.
Lemma phase_ret r v s : phase (Ret r) v s -> r = Ok Added /\ pview s t = Some None /\
  (base = None /\ line_ok v s (own t) Rb nobody \/ exists x, base = Some x /\ line_ok v s (own t) (Ra x) nobody).
Proof.
  intros P. remember (Ret r) as pr eqn:Hpr.
  destruct P as [v s Ht L|v s Ht Hh Hd L|v s Hb Ht L|v s x Hb T L|v s x sp path bs Hb T L W Hs Hr Ho
                |v s x sp st toks path bs Hb T L W Hs Hr Ho|v s x sp bs d Hb T L W Hs Hh Hd He
                |v s x sp Hb T L W Hp|v s x sp Hb T L W Hp|v s x Hb Ht L|v s x bx Hb Ht L Hx
                |v s x bx d Hb Ht L Hx Hh Hd He|v s x bx d Hb Ht L Hx Hp Hh Hd He
                |v s x bx d Hb Ht L Hx Hp Hh Hd He|v s x Hb Ht L]; try discriminate Hpr.
  - injection Hpr as <-. auto.
  - destruct path as [|y path]; [discriminate|discriminate Hpr].
  - destruct path as [|y path]; [|discriminate Hpr]. exfalso.
    destruct (edge_total re_w tk b bs) as [items [d [Hm Hser]]]; [apply (V_storable t), (V_new _ _ _ Hin)|now apply (V_storable sp)|].
    cbn [retrieve_loop] in Hr. unfold q3 in Hpr. cbn [retrieve_loop_p] in Hpr. rewrite Hr in Hpr. unfold mv in Hpr.
    cbn [Concurrent.pbind] in Hpr. rewrite Hm in Hpr.
    unfold add_edge_p in Hpr. cbn [Concurrent.pbind] in Hpr. rewrite Hser in Hpr. discriminate Hpr.
  - exfalso. destruct (edge_total re_w tk b bx) as [items [d [Hm Hser]]]; [apply (V_storable t), (V_new _ _ _ Hin)|now apply (V_storable x)|].
    unfold q8 in Hpr. cbn [Concurrent.pbind] in Hpr. rewrite Hm in Hpr. unfold add_edge_p in Hpr. cbn [Concurrent.pbind] in Hpr.
    rewrite Hser in Hpr. discriminate Hpr.
  - injection Hpr as <-. split; [reflexivity|]. split; [exact Ht|]. right; eauto.
Qed.
End One.

(** ** A get on its way, on a line nobody adds to *)
Section Reader.
Variables (u : K) (bu : list Z).
Definition got : option (list Z) -> prog answer := fun c => Ret (Ok (Found c)).
Definition r2 (r : prog (list Z)) : prog answer := pbind (pbind r (fun x => Ret (Ok (Some x)))) got.
Inductive reading : prog answer -> vstate -> Prop :=
| rd0 v : reading (start (Get u)) v
| rd1 v path : retrieve_using_path re_w tk HS DS TR v path = Ok bu -> (forall w, In w path -> own w = own u) ->
    reading (r2 (retrieve_p re_w tk HS DS TR path)) v
| rd2 v st toks path : retrieve_loop re_w tk HS DS TR v st toks path = Ok bu -> (forall w, In w path -> own w = own u) ->
    reading (r2 (retrieve_loop_p re_w tk HS DS TR st toks path)) v.
Lemma reading_frame o v s v' s' pr : own u <> o -> frame o v s v' s' -> reading pr v -> reading pr v'.
Proof.
  intros Ho Fr R. destruct R.
  - constructor.
  - constructor; auto. rewrite (retrieve_frame (own u) o v s v' s' path Ho Fr); auto.
  - constructor; auto. rewrite (retrieve_loop_frame (own u) o v s v' s' Ho Fr); auto.
Qed.
Lemma last_In {A} (l : list A) d : l <> [] -> In (last l d) l.
Proof. destruct l as [|x l _] using rev_ind; intros H; [congruence|]. rewrite last_last. apply in_or_app; right; now left. Qed.
Lemma reading_step done pr v s : glob done v s -> line_ok v s (own u) (is_head h) nobody -> added h u -> V u = Some bu ->
  reading pr v -> pf pr v = v /\ reading (pk pr v) v.
Proof.
  intros G L Ha Hb R. destruct R as [v|v path Hr Ho|v st toks path Hr Ho].
  - split; [reflexivity|]. destruct (glob_old done v s u G Ha) as [n Hn].
    destruct (rep_shape _ TL _ _ (g_rep _ _ _ G)) as [_ [FF _]]. destruct (FF u) as [l Hl]; [congruence|].
    destruct (up_down _ _ _ Hl) as [r [nr [Hnr [Hpr [Hd [Hlast [p Hp]]]]]]].
    assert (Hor : own r = own u).
    { rewrite <- (down_own done v s r (rev l) G Hd u); [reflexivity|]. rewrite <- Hlast. apply last_In. rewrite Hp; discriminate. }
    destruct (retrieve_way done v s (own u) (is_head h) r (rev l) G L Hd Hor) as [b [HV Hret]].
    { now apply (proj1 (L r Hor) nr Hnr). }
    assert (b = bu) by congruence. subst b.
    assert (Ek : pk (start (Get u)) v = r2 (retrieve_p re_w tk HS DS TR (rev l))).
    { cbn [Concurrent.start get_p Concurrent.pbind Concurrent.atom pk Versions.look fst snd].
      rewrite (rep_path _ TL _ s u l (g_rep _ _ _ G) Hl). cbn [Concurrent.pbind]. rewrite Hp. reflexivity. }
    rewrite Ek. constructor; [exact Hret|]. intros w Hw. rewrite <- Hor. now apply (down_own done v s r (rev l) G Hd).
  - destruct path as [|r path]; [discriminate|]. split; [reflexivity|].
    cbn [retrieve_using_path] in Hr.
    destruct (s_get HS (heads v) r) as [br|e] eqn:Hg; [|discriminate]. cbn [bind] in Hr.
    destruct (encode re_w tk new_tokenizer (CBytes br)) as [st [toks|e]] eqn:He; [|discriminate]. cbn [bind] in Hr.
    assert (Ek : pk (r2 (retrieve_p re_w tk HS DS TR (r :: path))) v = r2 (retrieve_loop_p re_w tk HS DS TR st toks path)).
    { unfold r2. cbn [retrieve_p Concurrent.pbind Concurrent.atom pk Versions.look fst snd]. rewrite Hg.
      cbn [Concurrent.pbind]. rewrite He. reflexivity. }
    rewrite Ek. constructor; [exact Hr|]. intros w Hw; apply Ho; now right.
  - destruct path as [|c path].
    + assert (Eq : r2 (retrieve_loop_p re_w tk HS DS TR st toks []) = Ret (Ok (Found (Some bu)))).
      { unfold r2. cbn [retrieve_loop_p]. cbn [retrieve_loop] in Hr. rewrite Hr. reflexivity. }
      replace (pk (r2 (retrieve_loop_p re_w tk HS DS TR st toks [])) v) with (r2 (retrieve_loop_p re_w tk HS DS TR st toks []))
        by (rewrite Eq; reflexivity).
      split; [rewrite Eq; reflexivity|]. constructor; auto.
    + split; [reflexivity|]. cbn [retrieve_loop] in Hr.
      destruct (s_get DS (diffs v) c) as [dd|e] eqn:Hg; [|discriminate]. cbn [bind] in Hr.
      destruct (deserialize_changeset dd) as [items stop] eqn:Hde.
      destruct (encode_items re_w tk st items) as [st' [pt|e]] eqn:He; [|discriminate]. cbn [bind] in Hr.
      destruct stop; [discriminate|].
      assert (Ek : pk (r2 (retrieve_loop_p re_w tk HS DS TR st toks (c :: path))) v =
                   r2 (retrieve_loop_p re_w tk HS DS TR st' (apply pt toks) path)).
      { unfold r2. cbn [retrieve_loop_p Concurrent.pbind Concurrent.atom pk Versions.look fst snd]. rewrite Hg.
        cbn [Concurrent.pbind]. rewrite Hde, He. reflexivity. }
      rewrite Ek. constructor; [exact Hr|]. intros w Hw; apply Ho; now right.
Qed.
Lemma reading_ret r v : reading (Ret r) v -> r = Ok (Found (Some bu)).
Proof.
  intros R. remember (Ret r) as pr eqn:Hpr. destruct R as [v|v path Hr Ho|v st toks path Hr Ho]; [discriminate| |].
  - destruct path; [discriminate Hr|discriminate Hpr].
  - destruct path; [|discriminate Hpr]. unfold r2 in Hpr. cbn [retrieve_loop_p] in Hpr. cbn [retrieve_loop] in Hr.
    rewrite Hr in Hpr. cbn in Hpr. injection Hpr as <-. reflexivity.
Qed.
End Reader.

(** ** All the calls *)
Variable calls : list (call (K := K)).
Hypothesis calls_new : forall a, In (Add a) calls <-> In a new.
Hypothesis calls_one : forall i j a, nth_error calls i = Some (Add a) -> nth_error calls j = Some (Add a) -> i = j.
Hypothesis calls_get : forall u, In (Get u) calls -> added h u /\ forall a, In a new -> own (tag_of a) <> own u.

Definition thread (c : call) (pr : prog answer) v s : Prop :=
  match c with
  | Add (t, b, base) => phase t b base pr v s
  | Get u => forall bu, V u = Some bu -> reading u bu pr v
  end.
Definition inv done (c : config HS DS TR) s : Prop :=
  glob done (fst c) s /\ length (snd c) = length calls /\
  (forall o, (forall a, In a new -> own (tag_of a) <> o) -> line_ok (fst c) s o (is_head h) nobody) /\
  forall i cl pr, nth_error calls i = Some cl -> nth_error (snd c) i = Some pr -> thread cl pr (fst c) s.

Lemma put_length {A} i (x : A) l : length (put i x l) = length l.
Proof. revert i; induction l as [|y l IH]; intros [|i]; cbn; auto. Qed.
Lemma nth_put {A} i (x : A) l j : i < length l -> nth_error (put i x l) j = if Nat.eqb i j then Some x else nth_error l j.
Proof.
  revert i j; induction l as [|y l IH]; intros i j H; cbn in *; [lia|].
  destruct i as [|i]; destruct j as [|j]; cbn; auto. apply IH; lia.
Qed.
Lemma inv_move done c s c' : inv done c s -> move HS DS TR c c' -> exists done' s', inv done' c' s'.
Proof.
  intros [G [Hlen [Q Th]]] M. inversion M as [v ps i f k Hi]; subst. cbn [fst snd] in *.
  assert (Hlt : i < length ps) by (apply nth_error_Some; congruence).
  destruct (nth_error calls i) as [cl|] eqn:Hc; [|apply nth_error_None in Hc; lia].
  pose proof (Th i cl _ Hc Hi) as Ti.
  destruct cl as [[[t b] base]|u].
  - assert (Hin : In (t, b, base) new) by (apply calls_new; eapply nth_error_In; eauto).
    destruct (phase_step t b base Hin done _ v s G Ti) as [done' [s' [G' [P' Fr]]]]. cbn [pf pk] in *.
    exists done', s'. unfold inv; cbn [fst snd]. split; [exact G'|]. split; [now rewrite put_length|]. split.
    + intros o Ho. eapply line_frame; [|exact Fr|now apply Q]. intros He; exact (Ho _ Hin (eq_sym He)).
    + intros j cl pr Hcj Hj. rewrite nth_put in Hj by exact Hlt. destruct (Nat.eqb_spec i j) as [<-|Hij].
      * assert (cl = Add (t, b, base)) by congruence. subst cl. injection Hj as <-. exact P'.
      * specialize (Th j cl pr Hcj Hj). destruct cl as [[[t2 b2] base2]|u]; cbn [thread] in *.
        -- assert (Hin2 : In (t2, b2, base2) new) by (apply calls_new; eapply nth_error_In; eauto).
           eapply (phase_frame t2 b2 base2 Hin2 done'); [exact G'| |exact Fr|exact Th].
           intros He. pose proof (own_one _ _ Hin2 Hin He) as Ha. rewrite Ha in Hcj. apply Hij. eapply calls_one; eauto.
        -- intros bu Hb. eapply reading_frame; [|exact Fr|now apply Th].
           destruct (calls_get u) as [_ Hq]; [eapply nth_error_In; eauto|]. intros He; exact (Hq _ Hin (eq_sym He)).
  - destruct (calls_get u) as [Ha Hq]; [eapply nth_error_In; eauto|].
    destruct (added_In h u Ha) as [bu [bb Hb]]. pose proof (V_old _ _ _ Hb) as HV.
    destruct (reading_step u bu done _ v s G (Q (own u) Hq) Ha HV (Ti bu HV)) as [Hv R]. cbn [pf pk] in *.
    exists done, s. rewrite Hv. unfold inv; cbn [fst snd]. split; [exact G|]. split; [now rewrite put_length|]. split; [exact Q|].
    intros j cl pr Hcj Hj. rewrite nth_put in Hj by exact Hlt. destruct (Nat.eqb_spec i j) as [<-|Hij]; [|now apply (Th j)].
    assert (cl = Get u) by congruence. subst cl. injection Hj as <-. intros bu' Hb'. assert (bu' = bu) by congruence. now subst.
Qed.
Lemma inv_moves done c s c' : inv done c s -> moves HS DS TR c c' -> exists done' s', inv done' c' s'.
Proof.
  intros I M; induction M as [c|c1 c2 c3 M IH L]; [eauto|].
  destruct (IH I) as [d2 [s2 I2]]. eapply inv_move; eauto.
Qed.

(** what a call returns *)
Lemma inv_answer done c s i cl r : inv done c s -> nth_error calls i = Some cl -> nth_error (snd c) i = Some (Ret r) ->
  match cl with Add _ => r = Ok Added | Get u => exists b base, In (u, b, base) h /\ r = Ok (Found (Some b)) end.
Proof.
  intros [G [Hlen [Q Th]]] Hc Hr. specialize (Th i cl _ Hc Hr). destruct cl as [[[t b] base]|u]; cbn [thread] in Th.
  - apply phase_ret in Th; [apply Th|]. apply calls_new; eapply nth_error_In; eauto.
  - destruct (calls_get u) as [Ha _]; [eapply nth_error_In; eauto|].
    destruct (added_In h u Ha) as [bu [bb Hb]]. exists bu, bb. split; [exact Hb|].
    eapply reading_ret; apply Th. eapply V_old; eauto.
Qed.

(** ** When all have returned *)
Lemma is_head_app l : (forall a, In a l -> ~ added h (tag_of a) /\ base_of a <> Some (tag_of a) /\ (forall x, base_of a = Some x -> added h x)) ->
  NoDup (map tag_of l) -> forall u,
  is_head (h ++ l) u <-> added l u \/ (is_head h u /\ ~ In (Some u) (map base_of l)).
Proof.
  induction l as [|a l IH] using rev_ind; intros H N u.
  - rewrite app_nil_r. unfold added; cbn. tauto.
  - rewrite map_app in N; cbn in N. apply NoDup_remove in N as [N1 N2]. rewrite app_nil_r in N1, N2.
    destruct (H a) as [A1 [A2 A3]]; [apply in_or_app; right; now left|].
    rewrite app_assoc, is_head_snoc; [|unfold added in *; rewrite map_app, in_app_iff; tauto|exact A2].
    rewrite IH; [|intros a' Ha'; apply H; apply in_or_app; now left|exact N1].
    unfold added. rewrite !map_app, !in_app_iff; cbn.
    assert (Hx : In u (map tag_of l) -> base_of a <> Some u).
    { intros Hu Hb. apply in_map_iff in Hu as [a' [<- Ha']]. destruct (H a') as [B _]; [apply in_or_app; now left|].
      apply B, A3. exact Hb. }
    split.
    + intros [->|[[Hu|[Hu1 Hu2]] Hb]]; [left; right; now left|left; now left|]. right; split; [exact Hu1|].
      intros [C|[C|[]]]; contradiction.
    + intros [[Hu|[Hu|[]]]|[Hu1 Hu2]]; [right; split; [now left|auto]|now left|]. right.
      split; [right; split; [exact Hu1|tauto]|]. intros C; apply Hu2; right; now left.
Qed.

Lemma inv_end done c s : inv done c s -> Forall (returned HS DS TR) (snd c) ->
  Permutation new done /\ hist_inv re_w tk HS DS TR HL DL TL (h ++ done) (fst c) s.
Proof.
  intros [G [Hlen [Q Th]]] Hall. destruct c as [v ps]; cbn [fst snd] in *.
  assert (Pend : forall t b base, In (t, b, base) new -> pview s t = Some None /\
    (base = None /\ line_ok v s (own t) (Rb t) nobody \/ exists x, base = Some x /\ line_ok v s (own t) (Ra t x) nobody)).
  { intros t b base Hin. pose proof (proj2 (calls_new _) Hin) as Hc. apply In_nth_error in Hc as [i Hi].
    destruct (nth_error ps i) as [pr|] eqn:Hp.
    - specialize (Th i _ pr Hi Hp). rewrite Forall_forall in Hall. specialize (Hall pr (nth_error_In _ _ Hp)).
      destruct pr as [r|f k]; [|destruct Hall]. cbn [thread] in Th.
      now apply (phase_ret t b base Hin) in Th as [_ Th].
    - apply nth_error_None in Hp. assert (i < length calls) by (apply nth_error_Some; congruence). lia. }
  assert (Hdone : forall a, In a new <-> In a done).
  { intros a. split; [|apply (g_done _ _ _ G)]. intros Ha. apply (glob_done done v s a G Ha).
    destruct a as [[t b] base]. destruct (Pend t b base Ha) as [Hp _]. cbn [tag_of fst]. intros Hn.
    apply pview_none in Hn. congruence. }
  assert (Nk : NoDup (map tag_of (h ++ done))).
  { rewrite <- (g_keys _ _ _ G). apply (rep_shape _ TL _ _ (g_rep _ _ _ G)). }
  assert (Nd : NoDup (map tag_of done)).
  { rewrite map_app in Nk. clear - Nk. induction (map tag_of h) as [|x l IH]; [exact Nk|].
    apply IH. now inversion Nk. }
  assert (Nn : NoDup (map tag_of new)).
  { pose proof nodup_h as N. rewrite map_app in N. clear - N. induction (map tag_of h) as [|x l IH]; [exact N|].
    apply IH. now inversion N. }
  split; [apply NoDup_Permutation; [now apply NoDup_map_inv in Nn|now apply NoDup_map_inv in Nd|exact Hdone]|].
  assert (HV : forall u, V_of (h ++ done) u = V u).
  { intros u. destruct (V u) as [bu|] eqn:Hu.
    - apply V_of_some in Hu as [bb Hin]. apply (V_of_In _ _ _ bb Nk). apply in_or_app.
      apply in_app_or in Hin as [Hin|Hin]; [now left|right]. now apply Hdone.
    - apply V_of_none. intros Ha. apply V_of_none in Hu. apply Hu.
      unfold added in *. rewrite map_app, in_app_iff in *. destruct Ha as [Ha|Ha]; [now left|right].
      apply in_map_iff in Ha as [a [<- Ha]]. apply in_map. now apply Hdone. }
  assert (Cases : forall u, (exists a, In a new /\ own (tag_of a) = own u) \/ (forall a, In a new -> own (tag_of a) <> own u)).
  { intros u. clear - O. induction new as [|a l IH]; [right; intros a []|].
    destruct (teq_spec (own (tag_of a)) (own u)) as [He|He]; [left; exists a; split; [now left|exact He]|].
    destruct IH as [[a' [H1 H2]]|IH]; [left; exists a'; split; [now right|exact H2]|].
    right; intros a' [<-|Ha']; auto. }
  assert (Line : forall u, exists R : K -> Prop, line_ok v s (own u) R nobody /\ (R u <-> is_head (h ++ done) u)).
  { assert (HA : forall u, is_head (h ++ done) u <-> added done u \/ (is_head h u /\ ~ In (Some u) (map base_of done))).
    { apply is_head_app; [|exact Nd]. intros a Ha. apply Hdone in Ha. split; [now apply new_not_old|].
      destruct a as [[t b] [x|]]; cbn [tag_of base_of fst snd]; [|split; [discriminate|discriminate]].
      destruct (base_known _ _ _ Ha) as [_ [Hax Hxt]]. split; [congruence|]. intros y [= <-]. exact Hax. }
    intros u. destruct (Cases u) as [[a [Ha Ho]]|Hq].
    - destruct a as [[t b] base]; cbn [tag_of fst] in Ho.
      assert (Hadd : added done u -> u = t).
      { intros Hu. apply in_map_iff in Hu as [a' [He Ha']]. apply Hdone in Ha'.
        assert (a' = (t, b, base)) by (apply own_one; auto; cbn [tag_of fst]; congruence). subst a'. auto. }
      assert (Hadd' : added done t) by (apply Hdone in Ha; apply (in_map tag_of) in Ha; exact Ha).
      assert (Hbs : In (Some u) (map base_of done) -> base = Some u).
      { intros Hu. apply in_map_iff in Hu as [[[t' b'] base'] [He Ha']]. cbn in He. subst base'. apply Hdone in Ha'.
        destruct (own_some _ _ _ Ha') as [O1 O2].
        assert (Hq : (t', b', Some u) = (t, b, base)) by (apply own_one; auto; cbn [tag_of fst]; congruence). congruence. }
      destruct (Pend t b base Ha) as [Hp [[Hb L]|[x [Hb L]]]]; rewrite <- Ho; eexists; (split; [exact L|]); rewrite HA.
      + unfold Rb. split; [intros [H|H]; [right; split; [exact H|intros C; apply Hbs in C; congruence]|left; congruence]|].
        intros [H|[H _]]; auto.
      + unfold Ra. split; [intros [[H H']|H]; [right; split; [exact H|intros C; apply Hbs in C; congruence]|left; congruence]|].
        intros [H|[H H']]; auto. left; split; [exact H|]. intros ->. apply H'. apply Hdone in Ha.
        apply (in_map base_of) in Ha. cbn in Ha. congruence.
    - exists (is_head h). split; [now apply Q|]. rewrite HA. split.
      + intros H; right; split; [exact H|]. intros C. apply in_map_iff in C as [[[t' b'] base'] [He Ha']]. cbn in He. subst base'.
        apply Hdone in Ha'. destruct (own_some _ _ _ Ha') as [O1 O2]. apply (Hq _ Ha'). cbn [tag_of fst]. congruence.
      + intros [H|[H _]]; [|exact H]. exfalso. apply in_map_iff in H as [a' [He Ha']]. apply Hdone in Ha'.
        apply (Hq _ Ha'). congruence. }
  assert (Tag : forall u, tag_ok v s u) by (intros u; destruct (Line u) as [R [L _]]; now apply (L u eq_refl)).
  split.
  - split.
    + apply G.
    + apply G.
    + intros u. rewrite V_of_none. pose proof (glob_known done v s u G). destruct (dget s u); split; intros; try congruence.
      * exfalso. apply H0, H. discriminate.
      * intros C. apply H in C. congruence.
    + intros u bu Hu. apply (V_storable u). now rewrite <- HV.
    + intros u n Hn Hp. pose proof (Tag u) as T. unfold tag_ok in T. rewrite Hn, Hp in T. rewrite HV. apply T.
    + intros u n q bq bu Hn Hp Hq Hu _. rewrite HV in Hq, Hu. pose proof (Tag u) as T. unfold tag_ok in T. rewrite Hn, Hp in T.
      destruct T as [_ [d [bq' [bu' [Hd [Hq' [Hu' He]]]]]]]. exists d; split; [exact Hd|]. congruence.
  - intros u _. pose proof (Tag u) as T. unfold tag_ok in T. destruct (dget s u) as [n|].
    + destruct (parent n) as [q|] eqn:Hp; split; intros H; exists n; split; auto; try congruence; destruct T; congruence.
    + destruct T as [T1 T2]. rewrite T1, T2. split; intros H; congruence.
  - apply G.
  - intros u n Hn. destruct (Line u) as [R [L HR]]. rewrite <- HR. now apply (L u eq_refl).
  - apply G.
  - apply G.
  - apply G.
Qed.

End Lines.
