(** The line tokenizer on long branches (C36). *)
From Coq Require Import ZArith Lia.
From Verif Require Import Base SpecSeq Changesets ChangesetsProofs SpecDiff DiffProofs SpecGreedy DiffGreedy Serialize SpecSerialize
  Tokenizers SpecTokenizers Utf8Proofs TokenizersProofs TokenizersDiff SpecTokens TokensProofs SpecEdits EditsProofs Tree SpecTree TreeProofs
  Versions SpecVersions VersionsPatch LinePatch VersionsInv VersionsProofs StorageProofs SpecLineVersions.
Local Open Scope nat_scope.
Local Notation names k st := (Forall2 (fun t x => name k st t = Some x)).

(** * Stored pieces are pieces the diff inserts *)
Section Pieces.
Variable re_w : Z -> bool.
Variable k : tkind.

Lemma decoded_pieces st ds : forall pt items D, map content pt = flat_map contents_of ds ->
  decode_items k st pt = Ok items -> decode_changes k st ds = Ok D ->
  forall d, In (PData d) items -> exists a b, In (TChange a b) D /\ raw a = d.
Proof.
  unfold decode_changes. induction ds as [|i ds IH]; intros pt items D Hp Hi HD d Hd.
  - destruct pt; [|discriminate]. cbn in Hi. injection Hi as <-. destruct Hd.
  - cbn [map_res] in HD. destruct (decode_item k st i) as [x|] eqn:Ex; [|discriminate]. cbn [bind] in HD.
    destruct (map_res (decode_item k st) ds) as [D'|] eqn:ED; [|discriminate]. injection HD as <-.
    destruct i as [t|a b]; cbn [flat_map contents_of app] in Hp.
    + destruct pt as [|[e|s] pt]; try discriminate. injection Hp as Hp. cbn [decode_items] in Hi.
      destruct (decode_items k st pt) as [items'|] eqn:Ei; [|discriminate]. injection Hi as <-.
      destruct Hd as [Hd|Hd]; [discriminate|].
      destruct (IH pt items' D' Hp Ei eq_refl d Hd) as (a & b & H1 & H2). exists a, b; split; [now right|exact H2].
    + destruct (nonempty a).
      * destruct pt as [|[e|s] pt]; try discriminate. injection Hp as -> Hp. cbn [decode_items decode_item] in Hi, Ex.
        destruct (decode k st a) as [ca|] eqn:Ea; [|discriminate]. cbn [bind] in Hi, Ex.
        destruct (decode k st b) as [cb|]; [|discriminate]. injection Ex as <-.
        destruct (decode_items k st pt) as [items'|] eqn:Ei; [|discriminate]. injection Hi as <-.
        destruct Hd as [[= <-]|Hd]; [exists ca, cb; split; [now left|reflexivity]|].
        destruct (IH pt items' D' Hp Ei eq_refl d Hd) as (a' & b' & H1 & H2). exists a', b'; split; [now right|exact H2].
      * destruct (IH pt items D' Hp Hi eq_refl d Hd) as (a' & b' & H1 & H2). exists a', b'; split; [now right|exact H2].
Qed.

Lemma changeset_pieces o m items st D : make_changeset re_w k o m = Ok items ->
  diff re_w k new_tokenizer (CBytes o) (CBytes m) = (st, Ok D) ->
  forall d, In (PData d) items -> exists a b, In (TChange a b) D /\ raw a = d.
Proof.
  unfold make_changeset, diff. destruct (encode re_w k new_tokenizer (CBytes o)) as [s1 [to|]]; [|discriminate]. cbn [bind].
  destruct (encode re_w k s1 (CBytes m)) as [s2 [tm|]]; [|discriminate]. cbn [bind].
  unfold diff_token_sequences. destruct (find_changeset to tm) as [c|]; [|discriminate]. cbn [bind].
  intros Hi HD. injection HD as _ HD. apply (decoded_pieces s2 (as_diff_stream to c) _ items D (same_contents to c) Hi HD).
Qed.
End Pieces.

Lemma calm_of_quiet re_w o m : encodable KLine (CBytes o) -> encodable KLine (CBytes m) ->
  quiet re_w o m -> calm re_w KLine o m.
Proof.
  intros Eo Em Q items Hi. 
  destruct (diff_units re_w KLine [] (CBytes o) (CBytes m)) as (st & D & tso & tsm & HD & _); auto.
  unfold after in HD; cbn [fold_left] in HD.
  apply Forall_forall. intros [d|s] Hd; [|exact Logic.I]. cbn.
  destruct (changeset_pieces re_w KLine o m items st _ Hi HD d Hd) as (a & b & H1 & <-).
  exact (Q _ _ HD a b H1).
Qed.

(** * Histories *)
Section Histories.
Context {K : Type} {E : Teq K} {O : TeqOk K}.
Variable re_w : Z -> bool.
Variables HS DS : store K. Variable TR : tree_impl K.
Variable HL : store_law HS. Variable DL : store_law DS. Variable TL : tree_law TR.
Notation run := (run re_w KLine HS DS TR).
Notation get := (Versions.get re_w KLine HS DS TR).
Notation hist_inv := (hist_inv re_w KLine HS DS TR HL DL TL).

Lemma older_app (h : list (adding K)) a x t : older h x t -> older (h ++ [a]) x t.
Proof.
  induction 1 as [t b x H|t b x y H _ IH]; [apply older_base with b|apply older_more with b x; [|exact IH]];
    apply in_or_app; now left.
Qed.
Lemma older_trans (h : list (adding K)) x y t : older h x y -> older h y t -> older h x t.
Proof.
  intros Hx Hy; induction Hy as [t b y H|t b y z H _ IH]; [now apply older_more with b y|].
  apply older_more with b y; auto.
Qed.
Lemma down_older h s t p : (forall c q, child_of s c q -> older h c q) -> down s t p -> last p t = t \/ older h (last p t) t.
Proof.
  intros He. induction 1 as [t Ht|t c p Hc Hd IH]; [now left|right].
  destruct (down_cons _ _ _ Hd) as [p' ->].
  assert (L : last (t :: c :: p') t = last (c :: p') c) by (change (last (t :: c :: p') t) with (last (c :: p') t); apply last_cons_any).
  rewrite L. destruct IH as [->|IH]; [now apply He|]. eapply older_trans; [exact IH|now apply He].
Qed.

Lemma edges_calm h v s : hist_inv h v s -> fresh KLine h -> quiet_history re_w h ->
  (forall c q, child_of s c q -> older h c q) -> calm_edges re_w KLine (V_of h) s.
Proof.
  intros I [N F] Q He c q bc bq Hc Vc Vq. apply V_of_some in Vc as [basec Hinc]. apply V_of_some in Vq as [baseq Hinq].
  rewrite Forall_forall in F. apply calm_of_quiet.
  - apply (F _ Hinq).
  - apply (F _ Hinc).
  - eapply Q; eauto.
Qed.

Theorem hist_quiet h : fresh KLine h -> quiet_history re_w h ->
  exists s, hist_inv h (run v_empty h) s /\ forall c q, child_of s c q -> older h c q.
Proof.
  induction h as [|a h IH] using rev_ind; intros F Q.
  - exists []; split; [apply hist_nil|]. intros c q [n [H _]]; discriminate.
  - destruct (fresh_snoc _ _ _ F) as [F' _].
    assert (Q' : quiet_history re_w h).
    { intros t b base x bx basex H1 H2 H3. apply (Q t b base x bx basex); [apply in_or_app; now left..|now apply older_app]. }
    destruct (IH F' Q') as [s [I He]].
    destruct (hist_step re_w KLine HS DS TR HL DL TL h _ s a I F) as [[s' [I' Hch]] _].
    { right; right. now apply (edges_calm h _ s I F' Q'). }
    exists s'. rewrite run_snoc. split; [exact I'|]. intros c q Hc.
    destruct Hch as [[_ Hch]|[x [p [Hx [_ [Hw Hch]]]]]].
    + apply older_app, He. now apply Hch.
    + apply Hch in Hc as [[-> Hc]|[_ [_ Hc]]]; [|apply older_app; now apply He].
      assert (Ho : older (h ++ [a]) x (tag_of a)).
      { apply older_base with (bytes_of a). apply in_or_app; right; left. destruct a as [[t b] base]; cbn in *; congruence. }
      destruct Hc as [-> | ->]; [exact Ho|].
      destruct (down_older h s x p He (proj1 Hw)) as [->|Hl]; [exact Ho|].
      eapply older_trans; [apply older_app; exact Hl|exact Ho].
Qed.

Theorem retrieval_quiet h : fresh KLine h -> quiet_history re_w h ->
  (forall t b base, In (t, b, base) h -> get (run v_empty h) t = Ok (Some b)) /\
  (forall t, ~ added h t -> get (run v_empty h) t = Ok None).
Proof.
  intros F Q. destruct (hist_quiet h F Q) as [s [I He]]. split.
  - intros t b base Hin. destruct (inv_up re_w KLine HS DS TR HL DL TL h _ s t I (In_added _ _ _ _ Hin)) as [l Hl].
    apply (inv_get re_w KLine HS DS TR HL DL TL h _ s t b base l I F Hin Hl). right; right. now apply (edges_calm h _ s I F Q).
  - intros t Hn. apply (get_none re_w KLine HS DS TR HL DL TL None (V_of h) _ s); [apply I|now apply V_of_none].
Qed.
End Histories.

(** * Diffs that insert no complete line *)
Section Greedy.
Context {T : Type} {E : Teq T} {O : TeqOk T}.
Implicit Types o m : list T.

Lemma inserted_inside (d : list (ditem T)) a b : In (DChange a b) d -> exists x z, diff_after d = x ++ a ++ z.
Proof.
  intros H. apply in_split in H as (d1 & d2 & ->). unfold diff_after. rewrite flat_map_app. cbn. eauto.
Qed.
Lemma lcs_after o m d : lcs_diff o m d -> diff_after d = m.
Proof.
  induction 1 as [o m _|o o1 o2 m m1 m2 w d1 d2 _ -> _ _ _ _ _ IH1 _ IH2].
  - destruct o, m; cbn; rewrite ?app_nil_r; reflexivity.
  - unfold diff_after in *. rewrite flat_map_app. cbn. now rewrite IH1, IH2.
Qed.
Lemma surround_lcs Y L W p o m d : lcs_diff o m d -> o = Y ++ L ++ W -> m = L ++ [p] ->
  forall a b, In (DChange a b) d -> a = [] \/ a = [p].
Proof.
  intros H Eo Em a b Hin. destruct H as [o m Hd|o o1 o2 m m1 m2 w d1 d2 Ho Hm Hw Hmax Hfirst _ H1 H2].
  - assert (L = []) as ->.
    { destruct L as [|x L]; [reflexivity|exfalso]. apply (Hd x); subst; rewrite ?in_app_iff; cbn; auto. }
    subst m. destruct o; cbn in Hin; destruct Hin as [[= <- <-]|[]]; now right.
  - assert (CL : common_to o m L) by (split; [exists Y, W; auto|exists [], [p]; auto]).
    assert (HmL : m1 = [] /\ (m2 = [] \/ m2 = [p])).
    { pose proof (Hmax L CL) as Hge. assert (Hlen : length m1 + length w + length m2 = length L + 1).
      { rewrite Em in Hm. apply (f_equal (@length T)) in Hm. rewrite !app_length in Hm. cbn in Hm. lia. }
      destruct (Nat.eq_dec (length w) (length L)) as [Heq|Hne].
      - assert (Hm1 : length m1 <= 0) by (apply (Hfirst L [] [p]); auto). destruct m1; [|cbn in Hm1; lia].
        split; [reflexivity|right]. rewrite Em in Hm. cbn in Hm.
        assert (Hf := f_equal (skipn (length L)) Hm). rewrite <- Heq in Hf at 2. rewrite !skipn_app, !skipn_all, !Nat.sub_diag in Hf. cbn in Hf. now symmetry.
      - destruct m1, m2; cbn in Hlen; try lia. split; auto. }
    destruct HmL as [-> Hm2]. apply in_app_or in Hin as [Hin|[Hin|Hin]]; [|discriminate|].
    + left. destruct (inserted_inside _ _ _ Hin) as (x & z & Hx). rewrite (lcs_after _ _ _ H1) in Hx.
      destruct x; [|discriminate]. now destruct a.
    + destruct (inserted_inside _ _ _ Hin) as (x & z & Hx). rewrite (lcs_after _ _ _ H2) in Hx.
      destruct Hm2 as [-> | ->].
      * left. destruct x; [|discriminate]. now destruct a.
      * destruct x as [|? x]; cbn in Hx.
        -- destruct a as [|? a]; [now left|]. injection Hx as <- Hx. destruct a; [now right|discriminate].
        -- injection Hx as _ Hx. left. destruct x; [|discriminate]. now destruct a.
Qed.
End Greedy.

Lemma no_line_end (p : list Z) : ~ In 10%Z p -> ~ ends_line p.
Proof. intros N [x ->]. apply N, in_or_app; right; now left. Qed.
Lemma empty_no_end : ~ ends_line [].
Proof. intros [x H]. now destruct x. Qed.

Section Corollaries.
Variable re_w : Z -> bool.

Lemma quiet_by_tokens new old : encodable KLine (CBytes new) -> encodable KLine (CBytes old) ->
  (forall tso tsm d, units re_w KLine (CBytes new) tso -> units re_w KLine (CBytes old) tsm -> lcs_diff tso tsm d ->
     forall a b, In (DChange a b) d -> ~ ends_line (concat a)) -> quiet re_w new old.
Proof.
  intros En Eo H st d HD a b Hin.
  destruct (diff_units re_w KLine [] (CBytes new) (CBytes old)) as (st' & D & tso & tsm & HD' & U1 & U2 & HT & _); auto.
  unfold after in HD'; cbn [fold_left] in HD'. rewrite HD' in HD. injection HD as _ <-.
  apply in_map_iff in Hin as ([t|a' b'] & Hp & Hin); [discriminate|]. cbn in Hp. injection Hp as <- <-.
  cbn. apply (H tso tsm D U1 U2) with b'; [now apply diff_greedy|exact Hin].
Qed.

Lemma surrounds_lines new old ls lso : surrounds new old -> units re_w KLine (CBytes new) ls -> units re_w KLine (CBytes old) lso ->
  exists Y L W p, ls = Y ++ L ++ W /\ lso = L ++ [p] /\ ~ In 10%Z p.
Proof.
  intros (y & z & -> & Hy) [C1 U1] [C2 U2]. cbn [raw] in C1, C2.
  destruct U2 as (L & p & -> & Np & FL).
  destruct (lines_text (p ++ z)) as (L' & p' & HL' & Np' & FL').
  assert (HY : exists Y, concat Y = y /\ Forall (fun t => exists l, ~ In 10%Z l /\ t = l ++ [10%Z]) Y).
  { destruct Hy as [->|[x ->]]; [exists []; split; [reflexivity|constructor]|].
    destruct (lines_text (x ++ [10%Z])) as (Y & r & HY & Nr & FY). pose proof (lines_of_concat (x ++ [10%Z])) as C.
    rewrite HY, concat_app in C. cbn in C. rewrite app_nil_r in C. exists Y. split; [|exact FY].
    destruct r as [|c r _] using rev_ind; [now rewrite app_nil_r in C|]. exfalso.
    rewrite app_assoc in C. apply app_inj_tail in C as [_ ->]. apply Nr, in_or_app; right; now left. }
  destruct HY as (Y & CY & FY). exists Y, L, (lines_of (p ++ z)), p. split; [|auto].
  rewrite <- (lines_unique ls U1), <- (lines_unique (Y ++ L ++ lines_of (p ++ z))).
  - f_equal. rewrite C1, !concat_app, CY, lines_of_concat, <- C2, concat_app. cbn. now rewrite app_nil_r, <- !app_assoc.
  - exists (Y ++ L ++ L'), p'. rewrite HL', <- !app_assoc. split; [reflexivity|]. split; [exact Np'|].
    apply Forall_app; split; [exact FY|]. now apply Forall_app.
Qed.
Lemma surrounds_quiet new old : encodable KLine (CBytes new) -> encodable KLine (CBytes old) ->
  surrounds new old -> quiet re_w new old.
Proof.
  intros En Eo Hs. apply quiet_by_tokens; auto. intros tso tsm d U1 U2 G a b Hin.
  destruct (surrounds_lines new old tso tsm Hs U1 U2) as (Y & L & W & p & E1 & E2 & Np).
  destruct (surround_lcs Y L W p tso tsm d G E1 E2 a b Hin) as [->| ->]; cbn; rewrite ?app_nil_r;
    [apply empty_no_end|now apply no_line_end].
Qed.
Lemma surrounds_trans a b c : surrounds a b -> surrounds b c -> surrounds a c.
Proof.
  intros (y & z & -> & Hy) (y' & z' & -> & Hy'). exists (y ++ y'), (z' ++ z). split; [now rewrite <- !app_assoc|].
  destruct Hy' as [->|[x ->]]; [now rewrite app_nil_r|right]. exists (y ++ x). now rewrite app_assoc.
Qed.

(** ** Lines that are only ever inserted *)
Lemma part_in {A} (l m : list A) x : part_of l m -> In x l -> In x m.
Proof. induction 1; cbn; intuition. Qed.
Lemma part_trans {A} (l m n : list A) : part_of l m -> part_of m n -> part_of l n.
Proof.
  intros H1 H2. revert l H1. induction H2 as [|x m n H2 IH|x m n H2 IH]; intros l H1; [exact H1| |].
  - inversion H1; subst; constructor; auto.
  - constructor; auto.
Qed.
Lemma part_tail {A} (x : A) l m : part_of (x :: l) m -> part_of l m.
Proof.
  remember (x :: l) as l' eqn:E. intros H; revert l E. induction H as [|y l0 m H IH|y l0 m H IH]; intros l E.
  - discriminate.
  - injection E as -> ->. now constructor.
  - constructor; auto.
Qed.
Lemma part_peel {A} (x : A) l m : NoDup (x :: m) -> part_of (x :: l) (x :: m) -> part_of l m.
Proof. intros N H; inversion H; subst; [assumption|now apply part_tail in H2]. Qed.
Lemma part_peels {A} (w l m : list A) : NoDup (w ++ m) -> part_of (w ++ l) (w ++ m) -> part_of l m.
Proof.
  induction w as [|x w IH]; cbn; intros N H; [exact H|]. apply part_peel in H; [|exact N].
  inversion N; subst; auto.
Qed.
Lemma part_skip_to {A} (x : A) o : forall l m, ~ In x o -> part_of (x :: l) (o ++ x :: m) -> part_of (x :: l) (x :: m).
Proof.
  induction o as [|y o IH]; cbn; intros l m N H; [exact H|]. apply IH; [tauto|].
  inversion H; subst; [exfalso; tauto|assumption].
Qed.
Lemma part_split {A} (x : A) o1 o2 : NoDup (o1 ++ x :: o2) -> forall m1 m2,
  part_of (m1 ++ x :: m2) (o1 ++ x :: o2) -> part_of m1 o1 /\ part_of (x :: m2) (x :: o2).
Proof.
  induction o1 as [|y o1 IH]; cbn [app]; intros N m1 m2 H.
  - assert (m1 = []) as ->; [|split; [constructor|exact H]].
    destruct m1 as [|z m1]; [reflexivity|exfalso]. inversion N as [|? ? Nx N']; subst.
    inversion H as [|? ? ? H'|? ? ? H']; subst; apply Nx.
    + apply (part_in _ _ x H'), in_or_app; right; now left.
    + apply (part_in _ _ x H'). cbn. right. apply in_or_app; right; now left.
  - inversion N as [|? ? Ny N']; subst. destruct m1 as [|z m1]; cbn [app] in H.
    + split; [|]. { clear. induction (y :: o1); constructor; auto. }
      apply (part_skip_to x (y :: o1)); [|exact H].
      intros [->|Hin]; [apply Ny, in_or_app; right; now left|].
      apply NoDup_remove_2 in N'. apply N', in_or_app; now left.
    + inversion H as [|? ? ? H'|? ? ? H']; subst.
      * destruct (IH N' m1 m2 H') as [P1 P2]. split; [now constructor|exact P2].
      * destruct (IH N' (z :: m1) m2 H') as [P1 P2]. split; [now constructor|exact P2].
Qed.
Lemma part_lcs (o m : list (list Z)) d : lcs_diff o m d -> NoDup o -> part_of m o ->
  forall a b, In (DChange a b) d -> a = [].
Proof.
  induction 1 as [o m Hd|o o1 o2 m m1 m2 w d1 d2 -> -> Hw _ _ _ _ IH1 _ IH2]; intros N P a b Hin.
  - assert (m = []) as ->.
    { destruct m as [|x m]; [reflexivity|exfalso]. apply (Hd x); [apply (part_in _ _ x P)|]; now left. }
    destruct o; cbn in Hin; [destruct Hin|]. destruct Hin as [Hin|[]]. congruence.
  - destruct w as [|x w]; [congruence|]. cbn [app] in N, P.
    destruct (part_split x o1 _ N _ _ P) as [P1 P2].
    pose proof N as N2. apply NoDup_app_r in N2.
    pose proof (part_peels (x :: w) m2 o2 N2 P2) as P3.
    apply in_app_or in Hin as [Hin|[Hin|Hin]]; [|discriminate|].
    + apply IH1 with b; auto. now apply NoDup_app_l in N.
    + apply IH2 with b; auto. cbn in N2. inversion N2; subst. now apply NoDup_app_r in H2.
Qed.
Lemma part_quiet new old ls lso : encodable KLine (CBytes new) -> encodable KLine (CBytes old) ->
  units re_w KLine (CBytes new) ls -> units re_w KLine (CBytes old) lso -> NoDup ls -> part_of lso ls -> quiet re_w new old.
Proof.
  intros En Eo U1 U2 N P. apply quiet_by_tokens; auto. intros tso tsm d U1' U2' G a b Hin.
  rewrite (units_unique _ _ _ _ _ U1' U1), (units_unique _ _ _ _ _ U2' U2) in G.
  rewrite (part_lcs _ _ _ G N P a b Hin). apply empty_no_end.
Qed.
End Corollaries.

Section HistoryCorollaries.
Context {K : Type} {E : Teq K} {O : TeqOk K}.
Variable re_w : Z -> bool.
Implicit Type h : list (adding K).

Lemma same_add h t b base b' base' : NoDup (map tag_of h) -> In (t, b, base) h -> In (t, b', base') h -> b = b'.
Proof. intros N H H'. apply (V_of_In h) in H, H'; auto. congruence. Qed.
Lemma older_added h x t : older h x t -> exists b x', In (t, b, Some x') h.
Proof. destruct 1; eauto. Qed.

Theorem surrounding_quiet h : fresh KLine h -> surrounding_history h -> quiet_history re_w h.
Proof.
  intros [N F] S t b base x bx basex Ht Hx Ho. rewrite Forall_forall in F.
  apply surrounds_quiet; [apply (F _ Ht)|apply (F _ Hx)|].
  revert b base Ht. induction Ho as [t b0 x H|t b0 z x H Ho IH]; intros b base Ht.
  - rewrite (same_add h t b base b0 _ N Ht H). now apply (S t b0 x bx basex).
  - destruct (older_added _ _ _ Ho) as (bz & z' & Hz).
    rewrite (same_add h t b base b0 _ N Ht H). apply surrounds_trans with bz; [now apply (S t b0 z bz (Some z'))|].
    now apply (IH Hx bz (Some z')).
Qed.
Theorem inserting_quiet h : fresh KLine h -> inserting_history re_w h -> quiet_history re_w h.
Proof.
  intros [N F] [S1 S2] t b base x bx basex Ht Hx Ho. rewrite Forall_forall in F.
  destruct (units_exist re_w KLine (CBytes b) (proj1 (proj2 (F _ Ht)))) as [ls U].
  destruct (units_exist re_w KLine (CBytes bx) (proj1 (proj2 (F _ Hx)))) as [lsx Ux].
  apply part_quiet with ls lsx; auto; [apply (F _ Ht)|apply (F _ Hx)|now apply (S1 t b base)|].
  revert b base Ht ls U. induction Ho as [t b0 x H|t b0 z x H Ho IH]; intros b base Ht ls U;
    rewrite (same_add h t b base b0 _ N Ht H) in U.
  - now apply (S2 t b0 x bx basex).
  - destruct (older_added _ _ _ Ho) as (bz & z' & Hz).
    destruct (units_exist re_w KLine (CBytes bz) (proj1 (proj2 (F _ Hz)))) as [lsz Uz].
    apply part_trans with lsz; [now apply (IH Hx bz (Some z'))|now apply (S2 t b0 z bz (Some z'))].
Qed.
End HistoryCorollaries.

Section QuietAdds.
Context {K : Type} {E : Teq K} {O : TeqOk K}.
Variable re_w : Z -> bool.
Variables HS DS : store K. Variable TR : tree_impl K.
Variable HL : store_law HS. Variable DL : store_law DS. Variable TL : tree_law TR.

Theorem quiet_adds (h : list (adding K)) a : valid KLine (h ++ [a]) -> quiet_history re_w h ->
  add_result re_w KLine HS DS TR (run re_w KLine HS DS TR v_empty h) a = Ok tt.
Proof.
  intros V Q. destruct (valid_snoc _ _ _ V) as [V' Hb].
  destruct (hist_quiet re_w HS DS TR HL DL TL h (proj1 V') Q) as [s [I He]].
  destruct (hist_step re_w KLine HS DS TR HL DL TL h _ s a I (proj1 V)) as [_ [H _]]; [|now apply H].
  right; right. now apply (edges_calm re_w HS DS TR HL DL TL h _ s I (proj1 V') Q).
Qed.
End QuietAdds.
