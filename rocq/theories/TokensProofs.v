(** Diffs and merges are made of the tokens of SpecTokens.v (C75). *)
From Coq Require Import ZArith Lia.
From Verif Require Import Base Changesets ChangesetsProofs SpecDiff DiffProofs Merge SpecMerge MergeLaws Tokenizers SpecTokenizers
  Utf8Proofs TokenizersProofs TokenizersDiff Lines Markup SpecMarkup MarkupCli MarksCli SpecTokens.
Local Open Scope Z_scope.

Section Tokens.
Variable re_w : Z -> bool.
Notation units := (units re_w).
Notation words := (words re_w).
Notation word_char := (word_char re_w).

Lemma word_bool c : is_word re_w c = true <-> word_char c.
Proof.
  unfold is_word, SpecTokens.word_char. rewrite !Bool.orb_true_iff, !Z.eqb_eq. tauto.
Qed.
Lemma word_bool_false c : is_word re_w c = false <-> ~ word_char c.
Proof. rewrite <- word_bool. now destruct (is_word re_w c). Qed.
Lemma tok_word_ok t : tok_word re_w t <-> word re_w t.
Proof.
  unfold tok_word, word. split; intros [N F]; (split; [exact N|]); (eapply Forall_impl; [|exact F]); intros c; apply word_bool.
Qed.
Lemma single_ok t : tok_single re_w t <-> exists c, t = [c] /\ ~ word_char c.
Proof. unfold tok_single. split; intros [c [E W]]; exists c; (split; [exact E|]); now apply word_bool_false. Qed.
Lemma single_not_word t : tok_single re_w t -> ~ word re_w t.
Proof. intros [c [-> W]] [_ F]. inversion F; subst. now apply word_bool_false in W. Qed.
Lemma sym_words ts : sym_seq re_w ts <-> words ts.
Proof.
  split.
  - induction 1 as [|t l H S [F N]|t l H S [F N] A].
    + split; [constructor|]. intros [|? ?] ? ? ? H; discriminate.
    + split; [constructor; [right; now apply single_ok|exact F]|].
      intros [|u x] v v' y E [W W']; [|injection E as _ E; eapply N; eauto].
      injection E as <- _. now apply (single_not_word t).
    + split; [constructor; [left; now apply tok_word_ok|exact F]|].
      intros [|u x] v v' y E [W W']; [|injection E as _ E; eapply N; eauto].
      injection E as _ ->. apply (single_not_word v'); [eapply A; reflexivity|exact W'].
  - induction ts as [|t ts IH]; intros [F N]; [constructor|].
    inversion F as [|? ? Ht F']; subst.
    assert (Q : sym_seq re_w ts).
    { apply IH. split; [exact F'|]. intros x u v y ->. now apply (N (t :: x) u v y). }
    destruct Ht as [W|Sg].
    + apply sym_word; [now apply tok_word_ok|exact Q|]. intros t' l' ->. apply single_ok.
      inversion F' as [|? ? [W'|S'] _]; subst; [|exact S']. exfalso. now apply (N [] t t' l' eq_refl).
    + apply sym_single; [now apply single_ok|exact Q].
Qed.

Lemma split_none s : Forall (fun l => ~ In 10 l) (split_nl s).
Proof.
  induction s as [|c s IH]; cbn; [repeat constructor; auto|]. destruct (Z.eqb_spec c 10) as [-> |N]; [constructor; auto|].
  destruct (split_nl s) as [|h t]; inversion IH; subst; (constructor; [|auto]); intros [H|H]; subst; auto.
Qed.
Lemma split_ne s : split_nl s <> [].
Proof. destruct s as [|c s]; cbn; [discriminate|]. destruct (c =? 10); [discriminate|]. destruct (split_nl s); discriminate. Qed.
Lemma lines_text s : text_lines (lines_of s).
Proof.
  unfold text_lines, lines_of. do 2 eexists. split; [reflexivity|]. pose proof (split_none s) as F.
  rewrite (app_removelast_last [] (split_ne s)) in F. apply Forall_app in F as [F G]. inversion G; subst. split; [assumption|].
  clear - F. induction F as [|l ls H F IH]; cbn; constructor; eauto.
Qed.
Lemma lines_unique ts : text_lines ts -> lines_of (concat ts) = ts.
Proof.
  intros (lines & rest & -> & N & F). unfold lines_of.
  assert (Hr : split_nl rest = [rest]).
  { clear - N. induction rest as [|c r IH]; [reflexivity|]. cbn. destruct (Z.eqb_spec c 10) as [-> |D]; [exfalso; apply N; now left|].
    rewrite IH; [reflexivity|]. intros H; apply N; now right. }
  assert (Hl : forall l y, ~ In 10 l -> split_nl (l ++ 10 :: y) = l :: split_nl y).
  { induction l as [|c l IH]; intros y H; cbn; [reflexivity|]. destruct (Z.eqb_spec c 10) as [-> |D]; [exfalso; apply H; now left|].
    rewrite IH; [reflexivity|]. intros ?; apply H; now right. }
  assert (HS : exists ls, lines = map (fun l => l ++ [10]) ls /\ split_nl (concat (lines ++ [rest])) = ls ++ [rest]).
  { clear - F Hr Hl. induction F as [|t lines (l & Nl & ->) F (ls & -> & IH)]; cbn.
    - exists []. now rewrite app_nil_r, Hr.
    - exists (l :: ls). split; [reflexivity|]. rewrite <- app_assoc. cbn. now rewrite Hl, IH. }
  destruct HS as (ls & -> & ->). rewrite removelast_app by discriminate. cbn [removelast]. now rewrite app_nil_r, last_last.
Qed.

Lemma concat_ones ts : Forall (fun t : list Z => length t = 1%nat) ts -> map (fun x => [x]) (concat ts) = ts.
Proof. induction 1 as [|[|c [|]] ts H F IH]; cbn; try discriminate; [reflexivity|now rewrite IH]. Qed.
Lemma chars_ok ts : Forall (fun t => exists x, scalar_value x /\ t = utf8_char x) ts ->
  exists s, Forall scalar_value s /\ ts = map utf8_char s /\ concat ts = flat_map utf8_char s.
Proof.
  induction 1 as [|t ts (x & X & ->) F (s & S & -> & C)]; [exists []; repeat split; constructor|].
  exists (x :: s). cbn. rewrite C. repeat split. now constructor.
Qed.

(** every text has one list of tokens *)
Lemma texts_units k c ts : real_contents c -> texts re_w k c = Some ts -> units k c ts.
Proof.
  intros Rc H. split; [exact (texts_concat _ _ _ _ H)|].
  destruct k, c as [b|s]; cbn in *.
  - injection H as <-. apply Forall_forall. intros t Ht. now apply in_map_iff in Ht as [x [<- _]].
  - injection H as <-. apply Forall_forall. intros t Ht. now apply in_map_iff in Ht as [x [<- _]].
  - destruct (utf8_decode b) as [s|] eqn:D; [|discriminate]. injection H as <-. apply utf8_decode_ok in D as [D _].
    apply Forall_forall. intros t Ht. apply in_map_iff in Ht as [x [<- Hx]]. rewrite Forall_forall in D. exists x; auto.
  - injection H as <-. apply Forall_forall. intros t Ht. now apply in_map_iff in Ht as [x [<- _]].
  - injection H as <-. apply lines_text.
  - injection H as <-. apply lines_text.
  - destruct (utf8_decode b) as [s|] eqn:D; [|discriminate]. injection H as <-. apply utf8_decode_ok in D as [D _].
    exists (symbols_of re_w s). split; [|split; [reflexivity|apply sym_words, symbols_of_seq]].
    rewrite <- (symbols_of_concat re_w s) in D. induction (symbols_of re_w s); [constructor|]. cbn in D.
    apply Forall_app in D as [D1 D2]. constructor; auto.
  - injection H as <-. apply sym_words, symbols_of_seq.
Qed.
Lemma units_texts k c ts : units k c ts -> texts re_w k c = Some ts.
Proof.
  intros [C U]. destruct k, c as [b|s]; cbn in *; subst; f_equal.
  - now apply concat_ones.
  - now apply concat_ones.
  - apply chars_ok in U as (s & S & -> & ->). now rewrite utf8_decode_encode.
  - now apply concat_ones.
  - now apply lines_unique.
  - now apply lines_unique.
  - destruct U as (us & F & -> & W). rewrite <- flat_map_pieces, utf8_decode_encode.
    + cbn. now rewrite symbols_of_unique by now apply sym_words.
    + clear W. induction F; cbn; [constructor|]. apply Forall_app; auto.
  - apply symbols_of_unique. now apply sym_words.
Qed.
Theorem units_unique k c ts ts' : units k c ts -> units k c ts' -> ts = ts'.
Proof. intros H%units_texts H'%units_texts. congruence. Qed.
Theorem units_exist k c : encodable k c -> exists ts, units k c ts.
Proof. intros E. destruct (texts_encodable re_w k c E) as [ts H]. exists ts. apply texts_units; [apply E|exact H]. Qed.

(** ** encode *)
Theorem encode_units k before c : Forall real_contents before -> Forall (fun x => kind_of x = kind_of c) before -> encodable k c ->
  exists st' toks ts, encode re_w k (after re_w k new_tokenizer before) c = (st', Ok toks) /\ units k c ts /\
    Forall2 (fun tok t => decode k st' [tok] = Ok (mk (kind_of c) t)) toks ts.
Proof.
  intros F1 F2 E. destruct (after_ok re_w k before _ new_ok F1) as [O _].
  assert (Hf : fits (after re_w k new_tokenizer before) c) by (apply after_fits; auto using new_ok; now left).
  destruct (texts_encodable re_w k c E) as [ts H].
  destruct (encode_ok re_w k _ c ts O Hf (proj1 E) H) as (st' & toks & EN & O' & _ & SR & R & N).
  exists st', toks, ts. split; [exact EN|]. split; [apply texts_units; [apply E|exact H]|].
  eapply Forall2_weak; [|exact N]. intros t x Hx. rewrite (decode_names k st' [t] [x] R) by (constructor; [exact Hx|constructor]).
  unfold src. rewrite SR. cbn [concat]. rewrite app_nil_r. destruct (kind_of c); reflexivity.
Qed.

(** ** diff *)
Lemma pieces_present s : pieces s = present s. Proof. reflexivity. Qed.
Theorem diff_units k before o m : Forall real_contents before -> Forall (fun x => kind_of x = kind_of o) before ->
  kind_of m = kind_of o -> encodable k o -> encodable k m ->
  exists st' D tso tsm, diff re_w k (after re_w k new_tokenizer before) o m = (st', Ok (map (pieces (kind_of o)) D)) /\
    units k o tso /\ units k m tsm /\ diff_token_sequences tso tsm = Ok D /\
    diff_before D = tso /\ diff_after D = tsm /\ normal_diff D.
Proof.
  intros F1 F2 Hk Eo Em. destruct (after_ok re_w k before _ new_ok F1) as [O _].
  assert (Hf : fits (after re_w k new_tokenizer before) o) by (apply after_fits; auto using new_ok; now left).
  destruct (diff_ok re_w k _ o m O Hf (eq_sym Hk) Eo Em) as (st' & tso & tsm & D & To & Tm & HD & E).
  destruct (diff_accounts tso tsm) as (D1 & HD1 & HB & HA). rewrite HD in HD1; injection HD1 as <-.
  destruct (diff_normal tso tsm) as (D1 & HD1 & N). rewrite HD in HD1; injection HD1 as <-.
  exists st', D, tso, tsm. split; [exact E|]. split; [apply texts_units; [apply Eo|exact To]|].
  split; [apply texts_units; [apply Em|exact Tm]|auto].
Qed.

Lemma pieces_texts s D : text_before (map (pieces s) D) = concat (diff_before D) /\ text_after (map (pieces s) D) = concat (diff_after D).
Proof.
  unfold text_before, text_after, diff_before, diff_after.
  induction D as [|i D [IH1 IH2]]; [now split|]. cbn [map flat_map]. rewrite !concat_app, IH1, IH2.
  destruct i; cbn [pieces]; rewrite ?raw_mk; now split.
Qed.
Lemma pieces_split s D : forall d1 d2, map (pieces s) D = d1 ++ d2 ->
  exists D1 D2, D = D1 ++ D2 /\ d1 = map (pieces s) D1 /\ d2 = map (pieces s) D2.
Proof.
  intros d1 d2 H. exists (firstn (length d1) D), (skipn (length d1) D). split; [now rewrite firstn_skipn|].
  rewrite <- firstn_map, <- skipn_map, H. split; [now rewrite firstn_app, Nat.sub_diag, firstn_all, app_nil_r|].
  now rewrite skipn_app, Nat.sub_diag, skipn_all.
Qed.
(** where a diff cuts a text, there is the end of a token *)
Lemma cut_at k before o m : Forall real_contents before -> Forall (fun x => kind_of x = kind_of o) before ->
  kind_of m = kind_of o -> encodable k o -> encodable k m ->
  exists st' d, diff re_w k (after re_w k new_tokenizer before) o m = (st', Ok d) /\
    forall d1 d2, d = d1 ++ d2 ->
      (exists u v, units k o (u ++ v) /\ text_before d1 = concat u /\ text_before d2 = concat v) /\
      (exists u v, units k m (u ++ v) /\ text_after d1 = concat u /\ text_after d2 = concat v).
Proof.
  intros F1 F2 Hk Eo Em. destruct (diff_units k before o m F1 F2 Hk Eo Em) as (st' & D & tso & tsm & E & Uo & Um & _ & B & A & _).
  exists st', (map (pieces (kind_of o)) D). split; [exact E|]. intros d1 d2 H.
  apply pieces_split in H as (D1 & D2 & -> & -> & ->). subst. rewrite before_app in Uo. rewrite after_app in Um.
  destruct (pieces_texts (kind_of o) D1) as [-> ->]. destruct (pieces_texts (kind_of o) D2) as [-> ->].
  split; do 2 eexists; (split; [eassumption|now split]).
Qed.

Lemma line_cut u v : text_lines (u ++ v) -> SpecLines.whole_lines (concat u) \/ concat v = [].
Proof.
  intros (lines & rest & E & N & F). destruct v as [|x v] using rev_ind; [now right|]. clear IHv. left.
  rewrite app_assoc in E. apply app_inj_tail in E as [<- <-]. apply Forall_app in F as [F _].
  destruct u as [|t u] using rev_ind; [now left|]. clear IHu. apply Forall_app in F as [_ F]. inversion F as [|? ? (l & _ & ->) _]; subst.
  right. rewrite concat_app. cbn. rewrite app_nil_r. exists (concat u ++ l). now rewrite app_assoc.
Qed.
Lemma word_cut u v x c c' y : words (u ++ v) -> concat u = x ++ [c] -> concat v = c' :: y -> ~ (word_char c /\ word_char c').
Proof.
  intros [F N] Hu Hv [Wc Wc'].
  destruct u as [|t u] using rev_ind; [destruct x; discriminate|]. clear IHu. destruct v as [|t' v]; [discriminate|].
  rewrite <- app_assoc in F, N. cbn in F, N. apply Forall_app in F as [_ F]. inversion F as [|? ? Ht F']; subst. inversion F' as [|? ? Ht' _]; subst.
  apply (N u t t' v eq_refl). split.
  - destruct Ht as [W|(d & -> & D)]; [exact W|]. rewrite concat_app in Hu; cbn in Hu. apply app_inj_tail in Hu as [_ ->]. contradiction.
  - destruct Ht' as [W|(d & -> & D)]; [exact W|]. cbn in Hv. injection Hv as -> _. contradiction.
Qed.
Lemma char_cut u v : Forall (fun t => exists x, scalar_value x /\ t = utf8_char x) (u ++ v) -> is_utf8 (concat u).
Proof. intros F. apply Forall_app in F as [F _]. apply chars_ok in F as (s & S & _ & C). now exists s. Qed.

Theorem diff_lines_whole before o m : Forall real_contents before -> Forall (fun x => kind_of x = kind_of o) before ->
  kind_of m = kind_of o -> encodable KLine o -> encodable KLine m ->
  exists st' d, diff re_w KLine (after re_w KLine new_tokenizer before) o m = (st', Ok d) /\
    forall d1 d2, d = d1 ++ d2 ->
      (SpecLines.whole_lines (text_before d1) \/ text_before d2 = []) /\
      (SpecLines.whole_lines (text_after d1) \/ text_after d2 = []).
Proof.
  intros F1 F2 Hk Eo Em. destruct (cut_at KLine before o m F1 F2 Hk Eo Em) as (st' & d & E & C).
  exists st', d. split; [exact E|]. intros d1 d2 H. destruct (C d1 d2 H) as [(u & v & [_ U] & -> & ->) (u' & v' & [_ U'] & -> & ->)].
  split; apply line_cut; [now destruct o|now destruct m].
Qed.
Theorem diff_words_whole before o m : Forall real_contents before -> Forall (fun x => kind_of x = SStr) before ->
  real_text o -> real_text m ->
  exists st' d, diff re_w KSymbol (after re_w KSymbol new_tokenizer before) (CStr o) (CStr m) = (st', Ok d) /\
    forall d1 d2 x c c' y, d = d1 ++ d2 ->
      (text_before d1 = x ++ [c] -> text_before d2 = c' :: y -> ~ (word_char c /\ word_char c')) /\
      (text_after d1 = x ++ [c] -> text_after d2 = c' :: y -> ~ (word_char c /\ word_char c')).
Proof.
  intros F1 F2 Ro Rm. destruct (cut_at KSymbol before (CStr o) (CStr m) F1 F2 eq_refl (conj Ro I) (conj Rm I)) as (st' & d & E & C).
  exists st', d. split; [exact E|]. intros d1 d2 x c c' y H. destruct (C d1 d2 H) as [(u & v & [_ U] & -> & ->) (u' & v' & [_ U'] & -> & ->)].
  split; intros H1 H2; [apply (word_cut u v x c c' y)|apply (word_cut u' v' x c c' y)]; auto.
Qed.
Theorem diff_chars_whole before o m : Forall real_contents before -> Forall (fun x => kind_of x = SBytes) before ->
  encodable KChar (CBytes o) -> encodable KChar (CBytes m) ->
  exists st' d, diff re_w KChar (after re_w KChar new_tokenizer before) (CBytes o) (CBytes m) = (st', Ok d) /\
    forall d1 d2, d = d1 ++ d2 -> is_utf8 (text_before d1) /\ is_utf8 (text_after d1).
Proof.
  intros F1 F2 Ro Rm. destruct (cut_at KChar before (CBytes o) (CBytes m) F1 F2 eq_refl Ro Rm) as (st' & d & E & C).
  exists st', d. split; [exact E|]. intros d1 d2 H. destruct (C d1 d2 H) as [(u & v & [_ U] & -> & _) (u' & v' & [_ U'] & -> & _)].
  split; eapply char_cut; eassumption.
Qed.

(** ** merge *)
Theorem merge_units o p c t : real_text p -> real_text c -> real_text t ->
  exists M tp tc tt, merge_result re_w o p c t = Ok (map (pieces SStr) M) /\
    units (tokenizer_of o) (CStr p) tp /\ units (tokenizer_of o) (CStr c) tc /\ units (tokenizer_of o) (CStr t) tt /\
    merge_token_sequence KTuple tp tc tt = Ok M /\
    (forall x, In x (tokens M) -> In x tc \/ In x tt).
Proof.
  intros Rp Rc Rt. unfold merge_result. set (k := tokenizer_of o).
  destruct (three re_w k p c t Rp Rc Rt) as [s1 [s2 [st [ep [ec [et [tp [tc [tt [E1 [E2 [E3 [O [R [Hsrc [Np [Nc [Nt [Tp [Tc Tt]]]]]]]]]]]]]]]]]]]].
  rewrite E1, E2, E3. cbn [bind]. destruct (merge_total KTuple tp tc tt) as [M HM]; [discriminate|].
  exists M, tp, tc, tt. rewrite (merge_texts k st ep ec et tp tc tt M) by assumption. rewrite Hsrc.
  split; [reflexivity|]. repeat (split; [now apply texts_units|]). split; [exact HM|]. now apply (merge_tokens KTuple tp tc tt).
Qed.
End Tokens.
