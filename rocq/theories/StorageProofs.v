(** What is stored for a version, and how long it is (C81). *)
From Coq Require Import ZArith Lia.
From Verif Require Import Base Changesets ChangesetsProofs Serialize SpecSerialize SerializeProofs SpecDiff Tokenizers
  SpecTokenizers TokenizersProofs TokenizersDiff Tree SpecTree TreeProofs TreeExact Versions SpecVersions VersionsPatch VersionsInv
  VersionsProofs VersionsMore SpecStorage.
Local Open Scope nat_scope.
Local Notation names k st := (Forall2 (fun t x => name k st t = Some x)).

(** * The size of a serialized patch *)
Lemma vser_short v c : vserialize_int v = Ok c -> 1 <= length c <= 9.
Proof. intros H. apply vser_inv in H as [_ H]. now apply venc_length in H. Qed.
Lemma serialize_size p : forall nb d, serialize_loop nb p = Ok d ->
  literal_bytes p <= length d <= literal_bytes p + 19 * length p.
Proof.
  induction p as [|i p IH]; intros nb d; cbn [serialize_loop].
  - intros [= <-]. cbn. lia.
  - change (vserialize_int 0) with (Ok [0%Z]). rewrite literal_cons. destruct i as [l|[i j]].
    + destruct (vserialize_int (Z.of_nat (length l))) as [n|] eqn:N; [|destruct nb; discriminate].
      destruct (serialize_loop false p) as [r|] eqn:R; [|destruct nb; discriminate].
      apply vser_short in N. apply IH in R.
      destruct nb; cbn [bind]; intros [= <-]; cbn [app length]; rewrite !app_length; lia.
    + destruct (vserialize_int (Z.of_nat i)) as [n|] eqn:N; [|destruct nb; discriminate].
      destruct (vserialize_bound j) as [n'|] eqn:N'; [|destruct nb; discriminate].
      destruct (serialize_loop true p) as [r|] eqn:R; [|destruct nb; discriminate].
      destruct j as [j|]; [|discriminate]. cbn in N'. apply vser_short in N, N'. apply IH in R.
      destruct nb; cbn [bind]; intros [= <-]; cbn [app length]; rewrite !app_length; lia.
Qed.

(** * The patch that is stored, and the diff that is shown *)
Definition shape (i : pitem Z) : option nat := match i with PData d => Some (length d) | PSlice _ => None end.
Definition shaped (i : titem) : list (option nat) :=
  match i with TText _ => [None] | TChange a _ => if length (raw a) =? 0 then [] else [Some (length (raw a))] end.
Definition content (i : pitem Z) : option (list Z) := match i with PData d => Some d | PSlice _ => None end.
Definition contents_of (i : ditem Z) : list (option (list Z)) :=
  match i with DText _ => [None] | DChange a _ => if nonempty a then [Some a] else [] end.

Lemma same_contents (o : list Z) c :
  map content (strip_forward (as_change_stream c)) = flat_map contents_of (as_diff_stream o c).
Proof.
  unfold strip_forward. induction c as [a b s1 s2|s1 s2 p IHp s IHs]; cbn [as_change_stream as_diff_stream].
  - destruct (nonempty b || nonempty a); [|reflexivity]. cbn. now destruct (nonempty b).
  - rewrite !flat_map_app, !map_app, IHp, IHs. reflexivity.
Qed.

Section Storage.
Context {K : Type} {E : Teq K} {O : TeqOk K}.
Variable re_w : Z -> bool.
Variable k : tkind.

Lemma texts_nonempty c ts : k <> KLine -> TokenizersProofs.texts re_w k c = Some ts -> Forall (fun t => t <> []) ts.
Proof.
  intros Hk H; unfold TokenizersProofs.texts in H; destruct k, c; try congruence; cbn in H.
    - injection H as <-. apply Forall_forall; intros t Ht; apply in_map_iff in Ht as [x [<- _]]; discriminate.
    - injection H as <-. apply Forall_forall; intros t Ht; apply in_map_iff in Ht as [x [<- _]]; discriminate.
    - destruct (utf8_decode b); [|discriminate]; injection H as <-.
      apply Forall_forall; intros t Ht; apply in_map_iff in Ht as [x [<- _]].
      unfold utf8_char; destruct (_ <? _)%Z; [discriminate|]; destruct (_ <? _)%Z; [discriminate|]; destruct (_ <? _)%Z; discriminate.
    - injection H as <-. apply Forall_forall; intros t Ht; apply in_map_iff in Ht as [x [<- _]]; discriminate.
    - destruct (utf8_decode b) as [u|]; [|discriminate]; injection H as <-.
      apply Forall_forall; intros t Ht; apply in_map_iff in Ht as [x [<- Hx]].
      pose proof (symbols_nonnil re_w u x Hx) as Hn.
      destruct x as [|c x]; [now destruct Hn|]. cbn. unfold utf8_char.
      destruct (_ <? _)%Z; [discriminate|]; destruct (_ <? _)%Z; [discriminate|]; destruct (_ <? _)%Z; discriminate.
    - injection H as <-. apply Forall_forall; intros x Hx. now apply symbols_nonnil in Hx.
Qed.

Definition readable (st : tstate) (l : list Z) : Prop :=
  exists b, decode k st l = Ok (mk (src st) b) /\ (length b = 0 <-> l = []).
Lemma readable_part st toks ts l : ready k st -> names k st toks ts -> Forall (fun t => t <> []) ts ->
  (forall t, In t l -> In t toks) -> readable st l.
Proof.
  intros R N F H. assert (G : exists us, names k st l us /\ Forall (fun t => t <> []) us).
  { induction l as [|t l IH]; [exists []; split; constructor|].
    destruct IH as (us & U1 & U2); [intros; apply H; now right|].
    assert (X : exists x, name k st t = Some x /\ x <> []).
    { specialize (H t (or_introl eq_refl)). clear -H N F. induction N as [|a x toks ts Hx _ IH]; [destruct H|].
      inversion F; subst. destruct H as [->|H]; [exists x; split; assumption|]. now apply IH. }
    destruct X as (x & X1 & X2). exists (x :: us). split; constructor; assumption. }
  destruct G as (us & U1 & U2). exists (concat us). split; [now apply decode_names|].
  destruct U1 as [|t x l us Hx U]; [cbn; tauto|]. inversion U2 as [|? ? Nx _]; subst.
  cbn [concat]. rewrite app_length. destruct x; [contradiction|]. cbn. split; discriminate.
Qed.

Lemma shapes_agree st ds : (forall t, In (DText t) ds -> readable st t) ->
  (forall a b, In (DChange a b) ds -> readable st a /\ readable st b) ->
  forall pt, map content pt = flat_map contents_of ds ->
  Forall (fun i => match i with PSlice _ => idle i = false | PData _ => True end) pt ->
  exists items D, decode_items k st pt = Ok items /\ decode_changes k st ds = Ok D /\
    map shape items = flat_map shaped D /\ trimmed items = items /\
    ((forall t, In (DText t) ds -> t <> []) -> forall t, In (TText t) D -> raw t <> []).
Proof.
  unfold decode_changes. induction ds as [|i ds IH]; intros Ht Hc pt Hp Hi.
  - destruct pt; [|discriminate]. exists [], []. repeat split; auto.
  - specialize (IH (fun t I => Ht t (or_intror I)) (fun a b I => Hc a b (or_intror I))).
    destruct i as [t|a b]; cbn [flat_map contents_of app] in Hp.
    + destruct pt as [|[d|s] pt]; try discriminate. injection Hp as Hp. inversion Hi as [|? ? I0 I1]; subst.
      destruct (IH pt Hp I1) as (items & D & E1 & E2 & E3 & E4 & E5).
      destruct (Ht t (or_introl eq_refl)) as (x & X & X').
      exists (PSlice s :: items), (TText (mk (src st) x) :: D). cbn [decode_items map_res decode_item].
      rewrite E1, X, E2. cbn [bind]. split; [reflexivity|]. split; [reflexivity|]. cbn [map shape flat_map shaped app].
      split; [now rewrite E3|]. unfold trimmed in *. cbn [filter]. rewrite I0. cbn [negb]. rewrite E4. split; [reflexivity|].
      intros N u [[= <-]|U]; [|apply E5; auto; intros v V; apply N; now right]. rewrite raw_mk.
      intros ->. apply (N t (or_introl eq_refl)), X'. reflexivity.
    + destruct (Hc a b (or_introl eq_refl)) as [(x & X & X') (y & Y & _)].
      destruct (nonempty a) eqn:Na; cbn [app] in Hp.
      * destruct pt as [|[d|s] pt]; try discriminate. injection Hp as -> Hp. inversion Hi as [|? ? _ I1]; subst.
        destruct (IH pt Hp I1) as (items & D & E1 & E2 & E3 & E4 & E5).
        exists (PData x :: items), (TChange (mk (src st) x) (mk (src st) y) :: D). cbn [decode_items map_res decode_item].
        rewrite E1, X, Y, E2. cbn [bind]. rewrite raw_mk. split; [reflexivity|]. split; [reflexivity|].
        cbn [map shape flat_map shaped app]. rewrite raw_mk.
        destruct (Nat.eqb_spec (length x) 0) as [Z|Z]; [apply X' in Z; subst; discriminate|]. cbn [app].
        split; [now rewrite E3|]. unfold trimmed in *. cbn [filter]. destruct x; [now destruct Z|]. cbn [idle negb]. rewrite E4. split; [reflexivity|].
        intros N u [U|U]; [discriminate|]. apply E5; auto; intros v V; apply N; now right.
      * destruct (IH pt Hp Hi) as (items & D & E1 & E2 & E3 & E4 & E5).
        exists items, (TChange (mk (src st) x) (mk (src st) y) :: D). cbn [map_res decode_item].
        rewrite E1, X, Y, E2. cbn [bind]. split; [reflexivity|]. split; [reflexivity|].
        cbn [flat_map shaped]. rewrite raw_mk. destruct a; [|discriminate]. rewrite (proj2 X' eq_refl). cbn [Nat.eqb app].
        split; [assumption|]. split; [assumption|].
        intros N u [U|U]; [discriminate|]. apply E5; auto; intros v V; apply N; now right.
Qed.

Lemma few_pieces D : (forall t, In (TText t) D -> raw t <> []) -> pieces_after D <= length (text_after D).
Proof.
  unfold pieces_after, text_after. induction D as [|[t|a b] D IH]; intros H; [auto| |];
    cbn [filter flat_map]; rewrite app_length; specialize (IH (fun t I => H t (or_intror I))).
  - cbn [length]. assert (raw t <> []) by (apply H; now left). destruct (raw t); [contradiction|]. cbn [length]. lia.
  - destruct (Nat.eqb_spec (length (raw a)) 0); cbn [negb length]; lia.
Qed.
Lemma store_like_diff o m : k <> KLine -> storable k o -> storable k m ->
  exists items D st, make_changeset re_w k o m = Ok items /\
    diff re_w k new_tokenizer (CBytes o) (CBytes m) = (st, Ok D) /\
    map shape items = flat_map shaped D /\ trimmed items = items /\ pieces_after D <= length m.
Proof.
  intros Hk [Eo Lo] [Em Lm].
  destruct (texts_encodable re_w k (CBytes o) Eo) as [tso To]. destruct (texts_encodable re_w k (CBytes m) Em) as [tsm Tm].
  destruct (encode_ok re_w k new_tokenizer (CBytes o) tso new_ok (or_introl eq_refl) (proj1 Eo) To)
    as [s1 [to [E1 [O1 [X1 [S1 [R1 N1]]]]]]].
  destruct (encode_ok re_w k s1 (CBytes m) tsm O1 (or_intror S1) (proj1 Em) Tm)
    as [s2 [tm [E2 [O2 [X2 [S2 [R2 N2]]]]]]].
  assert (N1' : names k s2 to tso) by (apply (names_extends k s1); auto; congruence).
  unfold make_changeset, diff. rewrite E1; cbn [bind]; rewrite E2; cbn [bind]. unfold diff_token_sequences.
  destruct (find_changeset_ok to tm) as [c [Hc G]]; rewrite Hc; cbn [bind].
  destruct (good_made _ _ _ _ _ _ _ G (le_n _) (le_n _)) as [Made _].
  destruct (good_diff _ _ _ _ _ _ _ G (le_n _) (le_n _)) as [B A]. rewrite seg_all in A, B.
  pose proof (texts_nonempty _ _ Hk To) as Fo. pose proof (texts_nonempty _ _ Hk Tm) as Fm.
  destruct (shapes_agree s2 (as_diff_stream to c)) with (pt := strip_forward (as_change_stream c)) as (items & D & H1 & H2 & H3 & H4 & H5).
  - intros t I. apply (readable_part s2 to tso); auto. intros x Ix. rewrite <- B. unfold diff_before.
    apply in_flat_map. exists (DText t). split; assumption.
  - intros a b I. split.
    + apply (readable_part s2 tm tsm); auto. intros x Ix. rewrite <- A. unfold diff_after.
      apply in_flat_map. exists (DChange a b). split; assumption.
    + apply (readable_part s2 to tso); auto. intros x Ix. rewrite <- B. unfold diff_before.
      apply in_flat_map. exists (DChange a b). split; assumption.
  - apply same_contents.
  - eapply Forall_impl; [|exact Made]. intros [d|[i [j|]]] Hi; [exact Logic.I| |destruct Hi].
    cbn in *. apply Nat.eqb_neq. lia.
  - exists items, D, s2. rewrite H1, H2. split; [reflexivity|]. split; [reflexivity|]. split; [exact H3|]. split; [exact H4|].
    destruct (diff_accounts_text re_w k [] (CBytes o) (CBytes m)) as (st' & D' & HD & _ & HA & _); auto.
    unfold after in HD; cbn [fold_left] in HD. unfold diff in HD. rewrite E1 in HD; cbn [bind] in HD; rewrite E2 in HD; cbn [bind] in HD.
    unfold diff_token_sequences in HD. rewrite Hc in HD; cbn [bind] in HD. rewrite H2 in HD. injection HD as _ <-.
    cbn [raw] in HA. rewrite <- HA. apply few_pieces, H5. intros t It ->.
    destruct (good_normal _ _ _ _ _ _ _ G ltac:(lia) ltac:(lia) ltac:(lia) ltac:(lia)) as [_ Hn].
    rewrite Forall_forall in Hn. exact (Hn _ It eq_refl).
Qed.

Lemma literal_shape items D : map shape items = flat_map shaped D ->
  literal_bytes items = bytes_inserted D /\ length items = pieces_after D.
Proof.
  unfold bytes_inserted, pieces_after. revert items. induction D as [|[t|a b] D IH]; intros items H; cbn [flat_map shaped app] in H.
  - destruct items; [now cbn|discriminate].
  - destruct items as [|[d|s] items]; try discriminate. injection H as H. destruct (IH items H) as [I1 I2].
    rewrite literal_cons. cbn [map list_sum fold_right filter length]. unfold list_sum in I1. rewrite <- I1, <- I2. split; reflexivity.
  - cbn [map filter]. destruct (Nat.eqb_spec (length (raw a)) 0) as [Z|Z]; cbn [app negb] in *.
    + destruct (IH items H) as [I1 I2]. unfold list_sum in *. cbn [fold_right]. rewrite Z. split; assumption.
    + destruct items as [|[d|s] items]; try discriminate. injection H as Hl H. destruct (IH items H) as [I1 I2].
      rewrite literal_cons. unfold list_sum in *. cbn [fold_right length]. rewrite <- I1, <- I2. split; lia.
Qed.

Variables HS DS : store K.
Variable TR : tree_impl K.
Variable HL : store_law HS.
Variable DL : store_law DS.
Variable TL : tree_law TR.

Theorem stored_diff h dg hg : k <> KLine -> fresh k h ->
  s_dot_get DS = Some dg -> s_dot_get HS = Some hg ->
  (forall d k, dg d k = view DL d k) -> (forall d k, hg d k = view HL d k) ->
  let v := run re_w k HS DS TR v_empty h in
  forall t b base, In (t, b, base) h -> ~ is_head h t ->
  exists d q bq base' path D st tokens changes,
    s_get DS (diffs v) t = Ok d /\
    tr_path_to TR (tree v) t = Ok (Some (path ++ [q; t])) /\ In (q, bq, base') h /\
    diff re_w k new_tokenizer (CBytes bq) (CBytes b) = (st, Ok D) /\
    version_info HS DS TR v t = Ok (Some (base, tokens, changes)) /\
    tokens = bytes_inserted D /\ changes = pieces_after D /\
    tokens <= length d <= tokens + 19 * changes /\ tokens <= length b /\ changes <= length b.
Proof.
  intros Hk F HD HH Ed Eh v t b base Hin Hh.
  destruct (hist_ok re_w k HS DS TR HL DL TL h Hk F) as [s I]. fold v in I.
  destruct (base_reported re_w k HS DS TR HL DL TL h Hk F) as [_ BR]. fold v in BR. specialize (BR t b base Hin).
  pose proof (In_added _ _ _ _ Hin) as Ha. pose proof (h_core _ _ _ _ _ _ _ _ _ _ _ I) as C.
  destruct (inv_up re_w k HS DS TR HL DL TL h _ s t I Ha) as [l Hl].
  destruct (dget s t) as [n|] eqn:Hn; [|inversion Hl; congruence].
  destruct (parent n) as [q|] eqn:Hp; [|exfalso; apply Hh; exact (proj1 (h_head _ _ _ _ _ _ _ _ _ _ _ I t n Hn) Hp)].
  assert (Hq : dget s q <> None).
  { apply (child_known re_w k HS DS TR HL DL TL (V_of h) v s None t q); [apply I|exists n; auto]. }
  destruct (V_of h q) as [bq|] eqn:Bq; [|apply (c_dom _ _ _ _ _ _ _ _ _ _ _ _ C) in Bq; contradiction].
  pose proof (V_of_In h t b base (proj1 F) Hin) as Bt.
  destruct (c_diff _ _ _ _ _ _ _ _ _ _ _ _ C t n q bq b Hn Hp Bq Bt) as [d [Hd [items [Hm Hs]]]]; [discriminate|].
  pose proof (c_ok _ _ _ _ _ _ _ _ _ _ _ _ C q bq Bq) as Sq. pose proof (c_ok _ _ _ _ _ _ _ _ _ _ _ _ C t b Bt) as St.
  destruct (store_like_diff bq b Hk Sq St) as (items' & D & st & Hm' & HD' & Sh & Tr & Fp).
  assert (items' = items) by congruence; subst items'.
  destruct (texts_encodable re_w k (CBytes bq) (proj1 Sq)) as [tq Htq].
  destruct (texts_encodable re_w k (CBytes b) (proj1 St)) as [tb Htb].
  destruct (make_changeset_ok re_w k bq b tq tb Sq St Htq Htb) as [items' [Hm'' PB]].
  pose proof PB as [_ [d' [Hs' Hde]]].
  assert (items' = items) by congruence; subst items'. assert (d' = d) by congruence; subst d'.
  destruct (literal_shape items D Sh) as [L1 L2].
  apply V_of_some in Bq as [base' Bq].
  pose proof (rep_path _ TL _ s t l (c_rep _ _ _ _ _ _ _ _ _ _ _ _ C) Hl) as P.
  inversion Hl as [? n' Hn' Hp'|? n' q' l' Hn' Hp' Hl']; subst; [congruence|].
  assert (q' = q) by congruence; subst q'.
  assert (exists m, l' = q :: m) as [m ->] by (inversion Hl'; eauto).
  cbn [rev] in P. rewrite <- app_assoc in P. cbn [app] in P.
  exists d, q, bq, base', (rev m), D, st, (literal_bytes items), (length items).
  split; [rewrite (view_get _ DL); now rewrite Hd|]. split; [exact P|]. split; [exact Bq|]. split; [exact HD'|].
  split. { unfold version_info. rewrite HD, HH, Ed, Hd, Hde, Tr. cbn [bind]. rewrite BR. reflexivity. }
  split; [exact L1|]. split; [exact L2|]. unfold serialize_changeset in Hs. apply serialize_size in Hs.
  split; [exact Hs|]. split; [|lia]. apply (patch_literal _ tq tb); [exact PB|]. now rewrite (texts_concat _ _ _ _ Htb).
Qed.
End Storage.

(** * Dicts and a MemoryTree *)
Section Dict.
Context {K : Type} {E : Teq K} {O : TeqOk K}.
Variable re_w : Z -> bool.
Variable k : tkind.
Notation D := (dict_store K).
Notation M := (memory_tree K).
Notation after h := (run re_w k D D M v_empty h).

Lemma stored_diff_all h : k <> KLine -> fresh k h ->
  forall t b base, In (t, b, base) h -> ~ is_head h t ->
  exists d q bq base' path items st tokens changes,
    dget (diffs (after h)) t = Some d /\
    m_path_to (tree (after h)) t = Ok (Some (path ++ [q; t])) /\ In (q, bq, base') h /\
    diff re_w k new_tokenizer (CBytes bq) (CBytes b) = (st, Ok items) /\
    version_info D D M (after h) t = Ok (Some (base, tokens, changes)) /\
    tokens = bytes_inserted items /\ changes = pieces_after items /\
    tokens <= length d <= tokens + 19 * changes /\ tokens <= length b /\ changes <= length b.
Proof.
  intros Hk F t b base Hin Hh.
  destruct (stored_diff re_w k D D M dict_law dict_law memory_law h (@dget K (list Z) E) (@dget K (list Z) E) Hk F
    eq_refl eq_refl (fun _ _ => eq_refl) (fun _ _ => eq_refl) t b base Hin Hh)
    as (d & q & bq & base' & path & items & st & tokens & changes & H1 & H2).
  exists d, q, bq, base', path, items, st, tokens, changes. split; [|exact H2].
  cbn in H1. destruct (dget (diffs (after h)) t); congruence.
Qed.
Theorem stored_diff_dict h : k <> KLine -> fresh k h ->
  forall t b base, In (t, b, base) h -> ~ is_head h t ->
  exists d q bq base' path items st tokens changes,
    dget (diffs (after h)) t = Some d /\
    m_path_to (tree (after h)) t = Ok (Some (path ++ [q; t])) /\ In (q, bq, base') h /\
    diff re_w k new_tokenizer (CBytes bq) (CBytes b) = (st, Ok items) /\
    version_info D D M (after h) t = Ok (Some (base, tokens, changes)) /\
    tokens = bytes_inserted items /\ changes = pieces_after items /\
    tokens <= length d <= tokens + 19 * changes.
Proof.
  intros Hk F t b base Hin Hh.
  destruct (stored_diff_all h Hk F t b base Hin Hh) as (d & q & bq & base' & path & items & st & tokens & changes & H).
  exists d, q, bq, base', path, items, st, tokens, changes. tauto.
Qed.
Theorem room_dict h : k <> KLine -> fresh k h ->
  forall t b base, In (t, b, base) h -> ~ is_head h t ->
  exists d, dget (diffs (after h)) t = Some d /\ length d <= 20 * length b.
Proof.
  intros Hk F t b base Hin Hh.
  destruct (stored_diff_all h Hk F t b base Hin Hh) as (d & q & bq & base' & path & items & st & tokens & changes & H).
  exists d. split; [tauto|]. lia.
Qed.
End Dict.
