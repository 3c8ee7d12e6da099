(** Every character gaspra-diff and gaspra-merge write comes from a text, from a file name
    or from the markup (C69). *)
From Coq Require Import String Lia.
From Verif Require Import Base Changesets SpecDiff DiffProofs Merge SpecMerge MergeLaws Tokenizers SpecTokenizers
  TokenizersProofs TokenizersDiff Lines SpecLines LinesProofs LinesMore Markup SpecMarkup MarkupProofs MarkupCli MarkupStrike.
Local Open Scope Z_scope.
Local Open Scope list_scope.

#[local] Existing Instance Teq_tag.
#[local] Existing Instance TeqOk_tag.

Section Chars.
Variable P : Z -> Prop.
Hypothesis Pascii : forall c, 32 <= c < 127 \/ c = 10 -> P c.
Notation FP := (Forall P).
Let P10 : P 10. Proof. apply Pascii; now right. Qed.

Definition lP (i : litem) : Prop := match i with LStr s => FP s | LChange a b => FP a /\ FP b end.
Definition oP (i : oitem) : Prop := match i with OStr s => FP s | OChange a b => Forall lP a /\ Forall lP b end.
Definition dP (i : ditem Z) : Prop := match i with DText s => FP s | DChange a b => FP a /\ FP b end.
Definition sP (x : side) : Prop := match x with Flat s => FP s | Nested l => Forall lP l end.
Definition mP (i : mitem) : Prop := match i with MStr s => FP s | MChange a b => sP a /\ sP b end.
Definition accP (c : acc) : Prop := Forall lP (p_into c) /\ Forall lP (p_from c).

Lemma last_P (l : list (list Z)) : Forall FP l -> FP (last l []).
Proof. induction 1 as [|x l H F IH]; [constructor|]. cbn. destruct l; assumption. Qed.
Lemma removelast_P (l : list (list Z)) : Forall FP l -> Forall FP (removelast l).
Proof. induction 1 as [|x l H F IH]; [constructor|]. cbn. destruct l; [constructor|]. now constructor. Qed.
Lemma concat_P (l : list (list Z)) : Forall FP l -> FP (concat l).
Proof. induction 1; cbn; [constructor|]. now apply Forall_app. Qed.
Lemma P_concat (l : list (list Z)) : FP (concat l) -> Forall FP l.
Proof. induction l as [|x l IH]; cbn; [constructor|]. intros H; apply Forall_app in H as [H1 H2]. auto. Qed.
Lemma split_P s : FP s -> Forall FP (split_nl s).
Proof.
  induction 1 as [|c s H F IH]; cbn [split_nl]; [repeat constructor|].
  destruct (c =? 10); [now constructor|]. destruct (split_nl s) as [|h t]; [repeat constructor; auto|].
  inversion IH; subst. constructor; [now constructor|assumption].
Qed.
Lemma join_P l : Forall FP l -> FP (join_with [10] l).
Proof.
  induction 1 as [|x l H F IH]; cbn; [constructor|]. destruct l; [assumption|].
  apply Forall_app; split; [assumption|]. now constructor.
Qed.
Lemma join_newline_P l : Forall FP l -> FP (join_with_newline l).
Proof.
  intros H. unfold join_with_newline. destruct l; [constructor|].
  apply Forall_app; split; [now apply join_P|repeat constructor; auto].
Qed.
Lemma if_nonempty_P s : FP s -> Forall oP (if_nonempty s).
Proof. unfold if_nonempty. destruct (nonempty s); repeat constructor; auto. Qed.

Lemma add_conflict_P a b c : FP a -> FP b -> accP c -> accP (add_conflict a b c).
Proof. intros A B [I F]; split; cbn; apply Forall_app; split; auto; repeat constructor; auto. Qed.
Lemma add_frag_P s c : FP s -> accP c -> accP (add_frag s c).
Proof. intros A [I F]; split; cbn; apply Forall_app; split; auto; repeat constructor; auto. Qed.
Lemma finish_P s c : FP s -> accP c -> Forall oP (fst (finish_conflict s c)) /\ accP (snd (finish_conflict s c)).
Proof.
  intros A C. unfold finish_conflict, conditional_add. destruct (finishable c).
  - cbn [fst snd]. split; [|split; constructor]. constructor; [exact C|]. destruct (nonempty s); repeat constructor; auto.
  - assert (accP (if nonempty s then add_frag s c else c)) as C' by (destruct (nonempty s); auto using add_frag_P).
    destruct (if nonempty s then add_frag s c else c) as [i f b k]. cbn [fst snd nonempty].
    split; [|split; constructor]. constructor; [exact C'|constructor].
Qed.

Variable space : Z -> bool.
Lemma fragment_P f c : dP f -> accP c ->
  Forall oP (fst (handle_fragment space f c)) /\ accP (snd (handle_fragment space f c)).
Proof.
  intros F C. destruct f as [s|a b]; cbn [handle_fragment].
  2:{ split; [constructor|]. destruct F. apply add_conflict_P; assumption. }
  destruct (in_conflict c && isspace space s); [split; [constructor|now apply add_frag_P]|].
  assert (X : Forall oP (fst (if finishable c && is_nonempty c then finish_conflict [] c else ([], c))) /\
              accP (snd (if finishable c && is_nonempty c then finish_conflict [] c else ([], c)))).
  { destruct (finishable c && is_nonempty c); [apply finish_P; auto|split; [constructor|exact C]]. }
  destruct (if finishable c && is_nonempty c then finish_conflict [] c else ([], c)) as [o1 c1]. cbn [fst snd] in X.
  destruct X as [O1 C1]. pose proof (split_P s F) as Sp. clear F.
  destruct (split_nl s) as [|first rest]; [split; assumption|]. inversion Sp as [|? ? F1 FR]; subst.
  destruct rest as [|second rest]; [split; [assumption|now apply add_frag_P]|].
  remember (second :: rest) as R. clear HeqR.
  assert (Y : forall o2 c2, Forall oP o2 -> accP c2 ->
    Forall oP (o1 ++ o2) /\ accP (if nonempty (last R []) then add_frag (last R []) c2 else c2)).
  { intros o2 c2 O2 C2. split; [now apply Forall_app|]. destruct (nonempty (last R [])); [|assumption].
    apply add_frag_P; [now apply last_P|assumption]. }
  assert (J : FP (join_with_newline (removelast R))) by now apply join_newline_P, removelast_P.
  destruct (in_conflict c1).
  - destruct (finish_conflict (first ++ [10]) c1) as [o c2] eqn:Q.
    pose proof (finish_P (first ++ [10]) c1) as X. rewrite Q in X. cbn [fst snd] in X |- *.
    destruct X as [O2 C2]; [apply Forall_app; split; [assumption|repeat constructor; auto]|assumption|].
    apply Y; [|assumption]. apply Forall_app; split; [assumption|now apply if_nonempty_P].
  - cbn [fst snd]. apply Y; [|assumption]. apply if_nonempty_P, join_newline_P. constructor; [assumption|now apply removelast_P].
Qed.
Lemma all_P l : forall c, Forall dP l -> accP c ->
  Forall oP (fst (handle_all space l c)) /\ accP (snd (handle_all space l c)).
Proof.
  induction l as [|f l IH]; intros c F C; cbn [handle_all]; [split; [constructor|exact C]|].
  inversion F as [|? ? F1 F2]; subst. destruct (is_true f); [|now apply IH].
  pose proof (fragment_P f c F1 C) as [O1 C1]. destruct (handle_fragment space f c) as [o c1]. cbn [fst snd] in *.
  pose proof (IH c1 F2 C1) as [O2 C2]. destruct (handle_all space l c1) as [o' c2]. cbn [fst snd] in *.
  split; [now apply Forall_app|assumption].
Qed.
Lemma strs_P l : forall r, Forall lP l -> map_res litem_str l = Ok r -> Forall FP r.
Proof.
  induction l as [|[s|a b] l IH]; intros r F; cbn; [intros [= <-]; constructor| |discriminate].
  inversion F; subst. destruct (map_res litem_str l) as [r'|] eqn:E; [|discriminate]. cbn. intros [= <-].
  constructor; [assumption|]. now apply IH.
Qed.
Lemma line_diff_P l d : Forall dP l -> to_line_diff space l = Ok d -> Forall oP d.
Proof.
  intros F. unfold to_line_diff. pose proof (all_P l new_acc F) as X.
  destruct X as [O C]; [split; constructor|]. destruct (handle_all space l new_acc) as [o c]. cbn [fst snd] in *.
  intros H. assert (Fl : forall t, flush c = Ok t -> Forall oP t).
  { intros t. unfold flush. destruct (in_conflict c).
    - intros [= <-]. apply finish_P; [destruct (finishable c); repeat constructor; auto|assumption].
    - destruct C as [_ C]. destruct (p_from c) as [|i r]; [intros [= <-]; constructor|].
      destruct (litem_true i); [|intros [= <-]; constructor].
      destruct (map_res litem_str ((i :: r) ++ [LStr [10]])) as [q|] eqn:E; [|discriminate]. cbn [bind]. intros [= <-].
      constructor; [|constructor]. cbn. apply concat_P. eapply strs_P; [|exact E].
      apply Forall_app; split; [assumption|repeat constructor; auto]. }
  destruct (flush c) as [t|]; [|discriminate]. cbn [bind] in H. injection H as <-.
  apply Forall_app; split; [assumption|]. apply Forall_app; split; [auto|].
  destruct (existsb is_true l); repeat constructor.
Qed.
Lemma consolidate_P l : forall a b, Forall oP l -> Forall lP a -> Forall lP b -> Forall oP (consolidate_loop l a b).
Proof.
  assert (Fl : forall a b, Forall lP a -> Forall lP b -> Forall oP (flush_changes a b)).
  { intros a b A B. unfold flush_changes. destruct a, b; first [apply Forall_nil|constructor; [split; assumption|constructor]]. }
  induction l as [|[s|x y] l IH]; intros a b F A B; cbn [consolidate_loop]; [auto| |].
  - inversion F; subst. apply Forall_app; split; [auto|]. constructor; [assumption|]. apply IH; auto.
  - inversion F as [|? ? XY F2]; subst. destruct XY as [X Y]. apply IH; auto; now apply Forall_app.
Qed.
Lemma shown_P o l s : Forall dP l -> shown space o l = Ok s -> Forall mP s.
Proof.
  intros F. unfold shown. destruct (o_show_lines o || o_git o).
  - unfold consolidated_line_diff. destruct (to_line_diff space l) as [d|] eqn:E; [|discriminate]. cbn [bind].
    intros [= <-]. pose proof (consolidate_P d [] [] (line_diff_P l d F E) (Forall_nil _) (Forall_nil _)) as H.
    unfold line_stream. apply Forall_forall. intros m Hm. apply in_map_iff in Hm as [i [<- Hi]].
    rewrite Forall_forall in H. specialize (H i Hi). destruct i; exact H.
  - intros [= <-]. unfold flat_stream. apply Forall_forall. intros m Hm. apply in_map_iff in Hm as [i [<- Hi]].
    rewrite Forall_forall in F. specialize (F i Hi). destruct i; exact F.
Qed.

(** rendering *)
Definition nP (n : bname) : Prop := match n with Some s => FP s | None => True end.
Definition bP (b : branch) : Prop :=
  match b with Branch p s => forall n, nP n -> FP (p n) /\ FP (s n) | BFunction _ => True end.
Definition markP (m : markup) : Prop :=
  bP (m_into m) /\ bP (m_from m) /\ FP (m_separator m) /\
  match m_header m with Some (a, b) => FP a /\ FP b | None => True end.
Variable escape : list Z -> list Z.
Hypothesis Pescape : forall s, FP s -> FP (escape s).

Lemma subscript_P b n ps : bP b -> nP n -> subscript b = Ok ps -> FP (fst ps n) /\ FP (snd ps n).
Proof. destruct b; cbn; [|discriminate]. intros H N [= <-]. now apply H. Qed.
Lemma flat_P s b n r : FP s -> bP b -> nP n -> flat_item escape s b n = Ok r -> FP r.
Proof.
  intros S B N. unfold flat_item. destruct (subscript b) as [ps|] eqn:E; [|discriminate]. cbn [bind]. intros [= <-].
  destruct (subscript_P b n ps B N E). repeat (apply Forall_app; split; auto).
Qed.
Lemma inner_P m : markP m -> forall l r, Forall lP l -> inner_stream escape l m = Ok r -> FP r.
Proof.
  intros [M1 [M2 [M3 _]]]. induction l as [|[s|a b] l IH]; intros r F; cbn [inner_stream].
  - intros [= <-]; constructor.
  - inversion F; subst. destruct (inner_stream escape l m) as [q|]; [|discriminate]. cbn [bind]. intros [= <-].
    apply Forall_app; split; auto.
  - inversion F as [|? ? AB F2]; subst. destruct AB as [A B].
    destruct (if nonempty a then flat_item escape a (m_into m) None else Ok []) as [x|] eqn:X; [|discriminate].
    destruct (if nonempty b then flat_item escape b (m_from m) None else Ok []) as [y|] eqn:Y; [|discriminate].
    cbn [bind]. destruct (inner_stream escape l m) as [q|]; [|discriminate]. cbn [bind]. intros [= <-].
    assert (FP x) by (destruct (nonempty a); [eapply flat_P; [| | |exact X]; auto; exact I|injection X as <-; constructor]).
    assert (FP y) by (destruct (nonempty b); [eapply flat_P; [| | |exact Y]; auto; exact I|injection Y as <-; constructor]).
    repeat (apply Forall_app; split; auto).
Qed.
Lemma change_P x b n m r : sP x -> bP b -> nP n -> (forall m', m = Some m' -> markP m') ->
  change_item escape x b n m = Ok r -> FP r.
Proof.
  intros X B N M. destruct x as [s|l]; cbn [change_item]; [now apply flat_P|].
  destruct (subscript b) as [ps|] eqn:E; [|discriminate]. cbn [bind]. destruct m as [m|]; [|discriminate].
  destruct (inner_stream escape l m) as [q|] eqn:Q; [|discriminate]. cbn [bind]. intros [= <-].
  destruct (subscript_P b n ps B N E). pose proof (inner_P m (M m eq_refl) l q X Q).
  repeat (apply Forall_app; split; auto).
Qed.
Lemma then_P o k : (forall s, o = Ok s -> FP s) -> Forall FP (fst k) -> Forall FP (fst (then_print o k)).
Proof. intros H K. destruct o; cbn; [constructor; auto|constructor]. Qed.
Lemma stream_P m0 m1 n0 n1 : markP m0 -> (forall m', m1 = Some m' -> markP m') -> nP n0 -> nP n1 ->
  forall l, Forall mP l -> Forall FP (fst (markup_stream escape l m0 m1 n0 n1)).
Proof.
  intros M0 M1 N0 N1. induction l as [|[s|a b] l IH]; intros F; cbn [markup_stream]; [constructor| |].
  - inversion F; subst. apply then_P; [|auto]. intros ? [= <-]; auto.
  - inversion F as [|? ? AB F2]; subst. destruct AB as [A B]. pose proof M0 as [M2 [M3 [M4 _]]].
    assert (H1 : forall k, Forall FP (fst k) -> Forall FP (fst (if side_true b then then_print (change_item escape b (m_from m0) n1 m1) k else k))).
    { intros k K. destruct (side_true b); [|exact K]. apply then_P; [|exact K]. intros s. now apply change_P. }
    assert (H2 : forall k, Forall FP (fst k) -> Forall FP (fst (if side_true a then then_print (change_item escape a (m_into m0) n0 m1) k else k))).
    { intros k K. destruct (side_true a); [|exact K]. apply then_P; [|exact K]. intros s. now apply change_P. }
    apply H2. apply then_P; [intros ? [= <-]; auto|]. apply H1. now apply IH.
Qed.
Lemma changes_P l m0 m1 n0 n1 h : markP m0 -> (forall m', m1 = Some m' -> markP m') -> nP n0 -> nP n1 -> nP h ->
  Forall mP l -> Forall FP (fst (markup_changes escape l m0 m1 n0 n1 h)).
Proof.
  intros M0 M1 N0 N1 H F. unfold markup_changes. pose proof (stream_P m0 m1 n0 n1 M0 M1 N0 N1 l F) as X.
  destruct h as [[|x h]|]; [exact X| |exact X]. apply then_P; [|exact X]. intros s [= <-]. unfold show_header.
  destruct M0 as [_ [_ [_ M4]]]. constructor; [exact P10|].
  destruct (m_header m0) as [[u v]|]; cbn [fst snd].
  - destruct M4. repeat (apply Forall_app; split; auto).
  - rewrite app_nil_r. exact H.
Qed.
End Chars.

Section Cli.
Variable P : Z -> Prop.
Hypothesis Pascii : forall c, 32 <= c < 127 \/ c = 10 -> P c.
Notation FP := (Forall P).

Ltac plain := repeat (apply Forall_cons; [apply Pascii; lia|]); try apply Forall_nil.
Lemma const_P s n : FP (str s) -> FP (const s n).
Proof. trivial. Qed.
Lemma name_P n : nP P n -> FP (show_name n).
Proof. destruct n; cbn; [trivial|]. intros _. plain. Qed.
Lemma git0_P : markP P GIT_MARKUP_LEVEL0.
Proof.
  split; [|split; [|split; [|exact I]]]; cbn [m_into m_from m_separator GIT_MARKUP_LEVEL0].
  - intros n N. split; [|cbn; plain]. repeat (apply Forall_app; split; [|]); try (cbn; now plain). now apply name_P.
  - intros n N. split; [cbn; plain|]. repeat (apply Forall_app; split; [|]); try (cbn; now plain). now apply name_P.
  - cbn; plain.
Qed.
Lemma colored0_P : markP P COLORED_LEVEL0.
Proof. split; [|split; [|split; [|split]]]; try (intros n N; split); cbn; plain. Qed.
Lemma plain1_P : markP P PLAIN_LEVEL1.
Proof. split; [|split; [|split; [|split]]]; try (intros n N; split); cbn; plain. Qed.
Lemma colored1_P : markP P COLORED_LEVEL1.
Proof. split; [|split; [|split; [|exact I]]]; try (intros n N; split); cbn; plain. Qed.
Lemma style_P o allow : o_strikeout o = false ->
  markP P (fst (snd (get_markup_style o allow initial_styles))) /\ markP P (snd (snd (get_markup_style o allow initial_styles))).
Proof.
  intros S. unfold get_markup_style. rewrite S. cbn [andb fst snd]. split.
  - destruct (o_git o); [apply git0_P|apply colored0_P].
  - destruct (o_output o); [apply plain1_P|apply colored1_P].
Qed.
Lemma items_P D : Forall (fun ts => FP (concat ts)) [diff_before D; diff_after D] -> Forall (dP P) (map cat_item D).
Proof.
  intros H. inversion H as [|? ? B H2]; subst. inversion H2 as [|? ? A _]; subst. clear H H2. revert B A.
  induction D as [|[t|a b] D IH]; cbn; [constructor| |]; intros B A; apply P_concat, Forall_app in B as [B1 B2];
    apply P_concat, Forall_app in A as [A1 A2]; (constructor; [|apply IH; apply concat_P; assumption]).
  - now apply concat_P.
  - split; apply concat_P; assumption.
Qed.
Lemma tokens_P M (a b : list (list Z)) : (forall x, In x (tokens M) -> In x a \/ In x b) -> FP (concat a) -> FP (concat b) ->
  Forall (dP P) (map cat_item M).
Proof.
  intros H A B. apply P_concat in A, B. rewrite Forall_forall in A, B.
  assert (K : Forall FP (tokens M)) by (apply Forall_forall; intros x Hx; destruct (H x Hx); auto).
  clear H. unfold tokens in K. induction M as [|[t|u v] M IH]; cbn in *; [constructor| |]; apply Forall_app in K as [K1 K2].
  - constructor; [now apply concat_P|auto].
  - apply Forall_app in K1 as [K1 K3]. constructor; [split; now apply concat_P|auto].
Qed.

Variable re_w space : Z -> bool.
Lemma display_P o style l n0 n1 h : o_output o = true -> markP P (fst style) -> markP P (snd style) ->
  FP n0 -> FP n1 -> nP P h -> Forall (dP P) l -> Forall FP (fst (display space o style l n0 n1 h)).
Proof.
  intros O M0 M1 N0 N1 H F. unfold display. destruct (shown space o l) as [s|] eqn:E; [|constructor].
  unfold escape_of. rewrite O. apply changes_P; auto.
  - intros m' [= <-]; assumption.
  - eapply shown_P; eauto.
Qed.

Theorem diff_chars o original modified n0 n1 : o_output o = true -> o_strikeout o = false ->
  real_text original -> real_text modified -> FP original -> FP modified -> FP n0 -> FP n1 ->
  Forall FP (fst (snd (diff_cli re_w space o original modified n0 n1 initial_styles))).
Proof.
  intros O St Ro Rm Po Pm N0 N1. unfold diff_cli. destruct (style_P o true St) as [M0 M1].
  destruct (get_markup_style o true initial_styles) as [g style]. cbn [fst snd] in *.
  destruct (diff_stream re_w (tokenizer_of o) original modified Ro Rm) as [d [-> [B [A _]]]]. cbn [snd].
  apply display_P; auto; try exact I; try (unfold escape_of; rewrite O; assumption).
  revert B A. generalize (map as_ditem d). clear d. intros d. intros <- <-. clear - Po Pm.
  unfold diff_before, diff_after in *. induction d as [|[t|a b] d IH]; cbn in *; [constructor| |];
    apply Forall_app in Po as [P1 P2]; apply Forall_app in Pm as [P3 P4]; (constructor; [|auto]).
  - assumption.
  - split; assumption.
Qed.
Theorem merge_chars o p c t pn cn tn : o_output o = true -> o_strikeout o = false ->
  real_text p -> real_text c -> real_text t -> FP p -> FP c -> FP t -> FP pn -> FP cn -> FP tn ->
  Forall FP (fst (snd (merge_cli re_w space o p c t pn cn tn initial_styles))).
Proof.
  intros Ho St Rp Rc Rt Pp Pc Pt Qp Qc Qt. unfold merge_cli. set (k := tokenizer_of o).
  destruct (three re_w k p c t Rp Rc Rt) as [s1 [s2 [st [ep [ec [et [tp [tc [tt [E1 [E2 [E3 [O [R [Hsrc [Np [Nc [Nt [Tp [Tc Tt]]]]]]]]]]]]]]]]]]]].
  rewrite E1, E2, E3.
  apply texts_concat in Tp, Tc, Tt. cbn [raw] in Tp, Tc, Tt. rewrite <- Tp in Pp. rewrite <- Tc in Pc. rewrite <- Tt in Pt.
  destruct (diff_accounts tp tc) as [D1 [HD1 [B1 A1]]]. pose proof (diff_texts k st ep ec tp tc D1 O R Np Nc HD1) as X1.
  destruct (diff_accounts tp tt) as [D2 [HD2 [B2 A2]]]. pose proof (diff_texts k st ep et tp tt D2 O R Np Nt HD2) as X2.
  destruct (merge_total KTuple tp tc tt) as [M0 HM]; [discriminate|].
  pose proof (merge_texts k st ep ec et tp tc tt M0 O R Np Nc Nt HM) as HT.
  destruct (diff_token_sequences ep ec) as [d1|]; [|discriminate].
  destruct (diff_token_sequences ep et) as [d2|]; [|discriminate].
  destruct (merge_token_sequence KTuple ep ec et) as [m|]; [|discriminate].
  cbn [bind] in *. rewrite X1, X2, HT. cbn [bind]. rewrite !Hsrc, !as_present.
  assert (F1 : Forall (dP P) (map cat_item D1)) by (apply items_P; rewrite B1, A1; auto).
  assert (F2 : Forall (dP P) (map cat_item D2)) by (apply items_P; rewrite B2, A2; auto).
  assert (F3 : Forall (dP P) (map cat_item M0)) by (apply (tokens_P M0 tc tt); auto; exact (merge_tokens KTuple tp tc tt M0 HM)).
  destruct (style_P o true St) as [U0 U1]. destruct (style_P o false St) as [V0 V1].
  destruct (initial_usable o true (or_introl St)) as [_ [_ U2]].
  destruct (get_markup_style o true initial_styles) as [g style] eqn:ES. cbn [fst snd] in *. subst g.
  destruct (get_markup_style o false initial_styles) as [g' style'] eqn:ES'. cbn [fst snd] in *.
  assert (Mg : FP (str "Merged")) by (cbn; plain).
  destruct (o_diff o).
  - pose proof (display_P o style (map cat_item D1) cn pn (Some cn) Ho U0 U1 Qc Qp Qc F1) as Y1.
    pose proof (display_P o style (map cat_item D2) tn pn (Some tn) Ho U0 U1 Qt Qp Qt F2) as Y2.
    destruct (display space o style _ cn pn (Some cn)) as [p1 [e1|]]; [exact Y1|].
    destruct (display space o style _ tn pn (Some tn)) as [p2 [e2|]]; cbn [fst snd] in *.
    { apply Forall_app; now split. }
    rewrite ES'. pose proof (display_P o style' (map cat_item M0) cn tn (Some (str "Merged")) Ho V0 V1 Qc Qt Mg F3) as Y3.
    destruct (display space o style' _ cn tn _) as [p3 e3]. cbn [fst snd] in *.
    repeat (apply Forall_app; split; auto).
  - rewrite ES'. pose proof (display_P o style' (map cat_item M0) cn tn None Ho V0 V1 Qc Qt I F3) as Y3.
    destruct (display space o style' _ cn tn _) as [p3 e3]. exact Y3.
Qed.
End Cli.
