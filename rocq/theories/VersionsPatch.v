(** Patches made through a tokenizer, stored as bytes, and replayed through
    another tokenizer of the same kind. *)
From Coq Require Import ZArith Lia.
From Verif Require Import Base SpecSeq Changesets ChangesetsProofs SpecDiff DiffLaws DiffProofs
  Serialize SpecSerialize SerializeProofs Tokenizers SpecTokenizers Utf8Proofs TokenizersProofs
  TokenizersDiff Tree Versions SpecVersions.

Section Sub.
Context {T : Type} {E : Teq T} {O : TeqOk T}.
Lemma seg_sub (l : list T) s e : exists x z, l = x ++ seg l s e ++ z.
Proof.
  unfold seg, slice. exists (firstn s l), (skipn (e - s) (skipn s l)).
  now rewrite !firstn_skipn.
Qed.
Definition sub_item (m : list T) (i : pitem T) : Prop :=
  match i with PData a => a <> [] /\ exists x z, m = x ++ a ++ z | PSlice _ => True end.
Lemma good_sub (o m : list T) s1 e1 s2 e2 c : good o m s1 e1 s2 e2 c ->
  Forall (sub_item m) (strip_forward (as_change_stream c)).
Proof.
  induction 1 as [s1 e1 s2 e2 os ms Hd H1 H2|s1 e1 s2 e2 pa pb l p s HL Hl Ho Hm Gp IHp Gs IHs]; cbn [as_change_stream].
  - pose proof (seg_sub m s2 e2) as Sm.
    destruct (seg m s2 e2) as [|y ys], (seg o s1 e1) as [|x xs]; cbn; try constructor; auto; try constructor; auto; discriminate.
  - unfold strip_forward in *; rewrite !flat_map_app; cbn [flat_map app].
    apply Forall_app; split; [assumption|constructor; [exact I|assumption]].
Qed.
End Sub.

Lemma Forall2_len {A B} (P : A -> B -> Prop) l r : Forall2 P l r -> length l = length r.
Proof. induction 1; cbn; congruence. Qed.
Lemma Forall2_skipn {A B} (P : A -> B -> Prop) l r : Forall2 P l r -> forall n, Forall2 P (skipn n l) (skipn n r).
Proof. induction 1; intros [|n]; cbn; auto. Qed.
Lemma Forall2_firstn {A B} (P : A -> B -> Prop) l r : Forall2 P l r -> forall n, Forall2 P (firstn n l) (firstn n r).
Proof. induction 1; intros [|n]; cbn; auto. Qed.
Lemma Forall2_sl {A B} (P : A -> B -> Prop) l r s : Forall2 P l r -> Forall2 P (sl l s) (sl r s).
Proof.
  intros H; unfold sl, pyslice; destruct (snd s); [apply Forall2_firstn|]; now apply Forall2_skipn.
Qed.

Definition item_rel {A B} (P : list A -> list B -> Prop) (i : pitem A) (j : pitem B) : Prop :=
  match i, j with
  | PData a, PData b => P a b
  | PSlice s, PSlice s' => s = s'
  | _, _ => False
  end.
Lemma apply_rel {A B} (P : A -> B -> Prop) p q l r :
  Forall2 (item_rel (Forall2 P)) p q -> Forall2 P l r -> Forall2 P (apply p l) (apply q r).
Proof.
  intros F H; unfold apply, join_changes; induction F as [|i j p q Hi _ IH]; cbn; [constructor|].
  apply Forall2_app; [|exact IH]. destruct i, j; cbn in Hi; try contradiction; [exact Hi|subst; now apply Forall2_sl].
Qed.

(** text-level patches *)
Definition flat (i : pitem (list Z)) : pitem Z :=
  match i with PData ts => PData (concat ts) | PSlice s => PSlice s end.

Section Patch.
Variable re_w : Z -> bool.
Variable k : tkind.
Notation texts := (texts re_w k).

Lemma names_fun st a ts ts' : names k st a ts -> names k st a ts' -> ts = ts'.
Proof.
  intros H; revert ts'; induction H as [|t x a ts Hx _ IH]; intros ts' H'; inversion H'; subst; [reflexivity|].
  f_equal; [congruence|auto].
Qed.

Lemma concat_len_ge {A} (ts : list (list A)) : Forall (fun t => t <> []) ts -> length ts <= length (concat ts).
Proof.
  induction 1 as [|t ts Ht _ IH]; cbn; [lia|]. rewrite app_length. destruct t; [now destruct Ht|cbn; lia].
Qed.
Lemma split_nl_length s : length (split_nl s) <= length s + 1.
Proof.
  induction s as [|c s IH]; cbn; [lia|]. destruct (c =? 10)%Z; cbn; [lia|].
  destruct (split_nl s); cbn in *; lia.
Qed.
Lemma symbols_nonnil s x : In x (symbols_of re_w s) -> x <> [].
Proof.
  pose proof (symbols_of_seq re_w s) as Q. revert Q. generalize (symbols_of re_w s) as L.
  induction L as [|h L IH]; intros Q [ ]; inversion Q as [|? ? [? [? ?]]|? ? [? ?]]; subst; auto; discriminate.
Qed.
Lemma texts_length c ts : texts c = Some ts -> length ts <= length (raw c) + 1.
Proof.
  intros H. pose proof (texts_concat _ _ _ _ H) as Hc.
  assert (Hne : k <> KLine -> Forall (fun t => t <> []) ts).
  { intros Hk; unfold TokenizersProofs.texts in H; destruct k, c; try congruence; cbn in H.
    - injection H as <-. apply Forall_forall; intros t Ht; apply in_map_iff in Ht as [x [<- _]]; discriminate.
    - injection H as <-. apply Forall_forall; intros t Ht; apply in_map_iff in Ht as [x [<- _]]; discriminate.
    - destruct (utf8_decode b); [|discriminate]; injection H as <-.
      apply Forall_forall; intros t Ht; apply in_map_iff in Ht as [x [<- _]].
      unfold utf8_char; destruct (_ <? _)%Z; [discriminate|]; destruct (_ <? _)%Z; [discriminate|]; destruct (_ <? _)%Z; discriminate.
    - injection H as <-. apply Forall_forall; intros t Ht; apply in_map_iff in Ht as [x [<- _]]; discriminate.
    - destruct (utf8_decode b) as [u|]; [|discriminate]; injection H as <-.
      apply Forall_forall; intros t Ht; apply in_map_iff in Ht as [x [<- Hx]].
      pose proof (symbols_nonnil u x Hx) as Hn.
      destruct x as [|c x]; [now destruct Hn|]. cbn. unfold utf8_char.
      destruct (_ <? _)%Z; [discriminate|]; destruct (_ <? _)%Z; [discriminate|]; destruct (_ <? _)%Z; discriminate.
    - injection H as <-. apply Forall_forall; intros x Hx. now apply symbols_nonnil in Hx. }
  destruct (match k with KLine => true | _ => false end) eqn:Hk.
  - destruct k; try discriminate. cbn in H; injection H as <-. unfold lines_of.
    rewrite app_length, map_length. cbn [length].
    pose proof (split_nl_length (raw c)). pose proof (split_nl_nonnil (raw c)).
    destruct (split_nl (raw c)) as [|h t]; [contradiction|].
    assert (L : length (removelast (h :: t)) = length t).
    { clear. revert h; induction t as [|h' t IH]; intros h; [reflexivity|]. 
      change (removelast (h :: h' :: t)) with (h :: removelast (h' :: t)). cbn [length]; now rewrite IH. }
    rewrite L. cbn [length] in *; lia.
  - rewrite <- Hc. etransitivity; [apply concat_len_ge, Hne|lia]. intros ->; discriminate.
Qed.

(** what a stored changeset means *)
Record patch_between (items : list (pitem Z)) (tso tsm : list (list Z)) : Prop := {
  pb_texts : exists tp, items = map flat tp /\ apply tp tso = tsm /\
    Forall (fun i => match i with PData ts => exists x z, tsm = x ++ ts ++ z | PSlice _ => True end) tp;
  pb_bytes : exists d, serialize_changeset items = Ok d /\ deserialize_changeset d = (trimmed items, None)
}.

Lemma decode_items_ok st pt tp : ready k st ->
  source_type st = Some SBytes ->
  Forall2 (item_rel (Forall2 (fun t x => name k st t = Some x))) pt tp ->
  decode_items k st pt = Ok (map flat tp).
Proof.
  intros R S; induction 1 as [|i j pt tp Hi _ IH]; cbn [decode_items map]; [reflexivity|].
  destruct i, j; cbn in Hi; try contradiction; cbn [flat].
  - rewrite (decode_names k st d d0 R Hi); cbn [bind]. rewrite IH; cbn [bind]. now rewrite raw_mk.
  - subst; now rewrite IH.
Qed.

Lemma make_changeset_ok o m tso tsm : storable k o -> storable k m ->
  texts (CBytes o) = Some tso -> texts (CBytes m) = Some tsm ->
  exists items, make_changeset re_w k o m = Ok items /\ patch_between items tso tsm.
Proof.
  intros [Eo Lo] [Em Lm] To Tm.
  destruct (encode_ok re_w k new_tokenizer (CBytes o) tso new_ok (or_introl eq_refl) (proj1 Eo) To)
    as [s1 [to [E1 [O1 [X1 [S1 [R1 N1]]]]]]].
  destruct (encode_ok re_w k s1 (CBytes m) tsm O1 (or_intror S1) (proj1 Em) Tm)
    as [s2 [tm [E2 [O2 [X2 [S2 [R2 N2]]]]]]].
  assert (N1' : names k s2 to tso) by (apply (names_extends k s1); auto; congruence).
  unfold make_changeset; rewrite E1; cbn [bind]; rewrite E2; cbn [bind].
  destruct (find_changeset_ok to tm) as [c [Hc G]]; rewrite Hc; cbn [bind].
  set (pt := strip_forward (as_change_stream c)).
  assert (Happ : apply pt to = tm).
  { destruct (good_forward _ _ _ _ _ _ _ G) as [H1 H2]; auto; rewrite seg_all in *; auto. }
  pose proof (good_sub _ _ _ _ _ _ _ G) as Sub. fold pt in Sub.
  destruct (good_made _ _ _ _ _ _ _ G (le_n _) (le_n _)) as [Made _]. fold pt in Made.
  assert (HTP : exists tp, Forall2 (item_rel (Forall2 (fun t x => name k s2 t = Some x))) pt tp /\
     Forall (fun i => match i with PData ts => exists x z, tsm = x ++ ts ++ z | PSlice _ => True end) tp).
  { clear -Sub N2. induction Sub as [|i pt Hi _ [tp [F G]]]; [exists []; auto|].
    destruct i as [a|s].
    - destruct Hi as [_ [x [z Hm]]]. rewrite Hm in N2.
      apply Forall2_app_inv_l in N2 as [x' [r' [_ [Nr Et]]]].
      apply Forall2_app_inv_l in Nr as [ts [z' [Na [_ Er]]]].
      exists (PData ts :: tp); split; [constructor; [exact Na|exact F]|].
      constructor; [exists x', z'; congruence|exact G].
    - exists (PSlice s :: tp); split; constructor; cbn; auto. }
  destruct HTP as [tp [Ftp Gtp]].
  exists (map flat tp); split; [now apply decode_items_ok|].
  split.
  - exists tp; split; [reflexivity|]. split; [|exact Gtp].
    eapply names_fun; [|exact N2]. rewrite <- Happ. now apply apply_rel.
  - apply patch_round_trip. unfold patch_fits.
    assert (Lto : length to = length tso) by (eapply Forall2_len; eauto).
    pose proof (texts_length _ _ To) as Lt. cbn [raw] in Lt.
    pose proof (texts_concat _ _ _ _ Tm) as Ct. cbn [raw] in Ct.
    clear -Made Ftp Gtp Lto Lt Lo Lm Ct.
    induction Ftp as [|i j pt tp Hi _ IH]; cbn [map]; [constructor|].
    inversion Made as [|? ? Mi Made']; inversion Gtp as [|? ? Gi Gtp']; subst. constructor; [|now apply IH].
    destruct i as [a|[s e]], j as [ts|s']; cbn in Hi; try contradiction; cbn [flat item_fits].
    + destruct Gi as [x [z ->]]. unfold u64. rewrite !concat_app, !app_length in Lm.
      split; [lia|]. transitivity (2 ^ 63)%Z; [lia|reflexivity].
    + subst s'. cbn in Mi. destruct e as [e|]; [|contradiction]. unfold u64.
      assert (2 ^ 63 + 2 < 2 ^ 64)%Z by reflexivity. lia.
Qed.

(** replaying *)
Lemma encode_items_ok tp : forall st, st_ok st -> source_type st = Some SBytes -> ready k st ->
  Forall (fun i => match i with
                   | PData ts => real_contents (CBytes (concat ts)) /\
                       ((k <> KLine /\ texts (CBytes (concat ts)) = Some ts) \/ k = KLine)
                   | PSlice _ => True end) tp ->
  exists st' pt tp', encode_items re_w k st (map flat tp) = (st', Ok pt) /\
    st_ok st' /\ extends st st' /\ source_type st' = Some SBytes /\ ready k st' /\
    Forall2 (item_rel (Forall2 (fun t x => name k st' t = Some x))) pt tp' /\
    Forall2 (item_rel (fun ts ts' => concat ts' = concat ts /\ (k <> KLine -> ts' = ts))) tp tp'.
Proof.
  induction tp as [|i tp IH]; intros st Hst S R F; cbn [map encode_items].
  - exists st, [], []. repeat split; auto using extends_refl; try apply Hst. exists []; now rewrite app_nil_r.
  - inversion F as [|? ? Hi F']; subst. destruct i as [ts|s]; cbn [flat].
    + destruct Hi as [Hr Ht].
      assert (HT : exists ts', texts (CBytes (concat ts)) = Some ts' /\ concat ts' = concat ts /\ (k <> KLine -> ts' = ts)).
      { destruct Ht as [[Hk Ht]|Hk].
        - exists ts; auto.
        - destruct k; try discriminate. cbn. exists (lines_of (concat ts)); split; [reflexivity|].
          split; [apply lines_of_concat|congruence]. }
      destruct HT as [ts' [Ht' [Hc Hk]]].
      destruct (encode_ok re_w k st (CBytes (concat ts)) ts' Hst (or_intror S) Hr Ht')
        as [s1 [toks [E1 [O1 [X1 [S1 [R1 N1]]]]]]].
      rewrite E1. destruct (IH s1 O1 S1 R1 F') as [st' [pt [tp' [E' [O' [X' [S' [R' [F1 F2]]]]]]]]].
      rewrite E'. exists st', (PData toks :: pt), (PData ts' :: tp').
      split; [reflexivity|]. split; [exact O'|]. split; [eapply extends_trans; eauto|].
      split; [exact S'|]. split; [exact R'|]. split; [|constructor; [cbn; auto|exact F2]].
      constructor; [|exact F1]. cbn. apply (names_extends k s1); auto. congruence.
    + destruct (IH st Hst S R F') as [st' [pt [tp' [E' [O' [X' [S' [R' [F1 F2]]]]]]]]].
      rewrite E'. exists st', (PSlice s :: pt), (PSlice s :: tp').
      split; [reflexivity|]. repeat (split; [assumption|]). split; constructor; cbn; auto.
Qed.

Lemma concat_apply tp tp' ts :
  Forall2 (item_rel (fun x y : list (list Z) => concat y = concat x /\ (k <> KLine -> y = x))) tp tp' ->
  concat (apply tp' ts) = concat (apply tp ts) /\ (k <> KLine -> apply tp' ts = apply tp ts).
Proof.
  unfold apply, join_changes; induction 1 as [|i j tp tp' Hi _ [IH1 IH2]]; cbn; [auto|].
  rewrite !concat_app, IH1. destruct i, j; cbn in Hi; try contradiction.
  - destruct Hi as [-> H]. split; [reflexivity|]. intros Hk; now rewrite IH2, H.
  - subst; split; [reflexivity|]. intros Hk; now rewrite IH2.
Qed.

(** the idle items of a text-level patch *)
Lemma trimmed_flat tp : exists tp', trimmed (map flat tp) = map flat tp' /\
  (forall ts, concat (apply tp' ts) = concat (apply tp ts)) /\
  (forall P, Forall P tp -> Forall P tp') /\
  (Forall (fun i => match i with PData ts => concat ts = [] -> ts = [] | PSlice _ => True end) tp ->
   forall ts, apply tp' ts = apply tp ts).
Proof.
  induction tp as [|i tp [tp' [E1 [E2 [E3 E4]]]]]; cbn [map].
  - exists []; repeat split; auto.
  - unfold trimmed in *; cbn [filter]. rewrite E1. destruct (idle (flat i)) eqn:Hi; cbn [negb].
    + exists tp'; split; [reflexivity|]. 
      assert (Hz : forall ts, concat (match i with PData d => d | PSlice s => sl ts s end) = []).
      { intros ts; destruct i as [d|[s [e|]]]; cbn in *; try discriminate.
        - destruct (concat d); [reflexivity|discriminate].
        - apply Nat.eqb_eq in Hi; subst. unfold sl, pyslice; cbn. now rewrite Nat.sub_diag. }
      split; [|split].
      * intros ts. rewrite E2. unfold apply, join_changes; cbn. rewrite concat_app, Hz. reflexivity.
      * intros P F; inversion F; subst; auto.
      * intros F ts; inversion F as [|? ? Fi F']; subst. rewrite (E4 F'). unfold apply, join_changes; cbn.
        destruct i as [d|[s [e|]]]; cbn in *; try discriminate.
        -- destruct (concat d) eqn:Hd; [|discriminate]. now rewrite (Fi eq_refl).
        -- apply Nat.eqb_eq in Hi; subst. unfold sl, pyslice; cbn. now rewrite Nat.sub_diag.
    + exists (i :: tp'); split; [reflexivity|]. split; [|split].
      * intros ts. unfold apply, join_changes in *; cbn. rewrite !concat_app. now rewrite (E2 ts).
      * intros P F; inversion F; subst; auto.
      * intros F ts; inversion F as [|? ? Fi F']; subst. unfold apply, join_changes in *; cbn. now rewrite (E4 F').
Qed.

(** one step of retrieval: from the tokens of [o] to tokens of [m] *)
Lemma replay_step items tso tsm m st toks :
  patch_between items tso tsm -> storable k m -> texts (CBytes m) = Some tsm ->
  st_ok st -> source_type st = Some SBytes -> ready k st -> names k st toks tso ->
  exists st' pt tsm', encode_items re_w k st (trimmed items) = (st', Ok pt) /\
    st_ok st' /\ source_type st' = Some SBytes /\ ready k st' /\
    names k st' (apply pt toks) tsm' /\ concat tsm' = m /\ (k <> KLine -> tsm' = tsm).
Proof.
  intros [[tp [-> [Ha Hsub]]] _] [Em Lm] Tm Hst S R N.
  destruct (trimmed_flat tp) as [tp1 [E1 [E2 [E3 E4]]]]. rewrite E1.
  apply E3 in Hsub as Hsub1.
  pose proof (texts_concat _ _ _ _ Tm) as Ct. cbn [raw] in Ct.
  assert (Hpiece : forall ts, (exists x z, tsm = x ++ ts ++ z) ->
     real_contents (CBytes (concat ts)) /\ ((k <> KLine /\ texts (CBytes (concat ts)) = Some ts) \/ k = KLine)).
  { intros ts [x [z Hx]]. split.
    - destruct Em as [Em _]. cbn in *. rewrite <- Ct, Hx, !concat_app in Em.
      apply Forall_app in Em as [_ Em]; now apply Forall_app in Em as [Em _].
    - destruct (match k with KLine => true | _ => false end) eqn:Hk; [right; destruct k; congruence|].
      left. assert (Hk' : k <> KLine) by (intros ->; discriminate). split; [exact Hk'|].
      rewrite Hx in Tm. now apply texts_piece in Tm. }
  assert (F1 : Forall (fun i => match i with
                   | PData ts => real_contents (CBytes (concat ts)) /\
                       ((k <> KLine /\ texts (CBytes (concat ts)) = Some ts) \/ k = KLine)
                   | PSlice _ => True end) tp1).
  { eapply Forall_impl; [|exact Hsub1]. intros [ts|s]; auto. }
  destruct (encode_items_ok tp1 st Hst S R F1) as [st' [pt [tp2 [E' [O' [X' [S' [R' [G1 G2]]]]]]]]].
  exists st', pt, (apply tp2 tso). split; [exact E'|]. split; [exact O'|]. split; [exact S'|]. split; [exact R'|].
  destruct (concat_apply tp1 tp2 tso G2) as [C1 C2].
  split; [apply apply_rel; [exact G1|apply (names_extends k st); auto; congruence]|].
  split; [rewrite C1, E2, Ha; exact Ct|].
  intros Hk. rewrite (C2 Hk). rewrite E4; [exact Ha|].
  eapply Forall_impl; [|exact Hsub]. intros [ts|s]; [|auto]. intros Hs Hz.
  destruct (Hpiece ts Hs) as [_ [[_ Ht]|Hk']]; [|contradiction].
  rewrite Hz in Ht. clear -Ht Hk. destruct k; cbn in Ht; try contradiction; congruence.
Qed.
End Patch.
