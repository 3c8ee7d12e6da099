(** Replaying patches of line tokens: which ones keep the tokens in step. *)
From Coq Require Import ZArith Lia.
From Verif Require Import Base Changesets Serialize SpecSerialize Tokenizers SpecTokenizers SpecTokens Utf8Proofs
  TokenizersProofs TokenizersDiff TokensProofs Versions SpecVersions VersionsPatch.
Local Open Scope nat_scope.
Local Notation names k st := (Forall2 (fun t x => name k st t = Some x)).

Definition ends_nl (d : list Z) : Prop := exists x, d = x ++ [10%Z].
Definition calm_item (i : pitem Z) : Prop := match i with PData d => ~ ends_nl d | PSlice _ => True end.

(** the empty token after the last newline may be missing *)
Definition near (ts' ts : list (list Z)) : Prop := ts' = ts \/ ts = ts' ++ [[]].

Inductive loses : list (list Z) -> list (list Z) -> Prop :=
| loses_nil : loses [] []
| loses_keep x l' l : loses l' l -> loses (x :: l') (x :: l)
| loses_drop l' l : loses l' l -> loses l' ([] :: l).

Lemma loses_refl l : loses l l.
Proof. induction l; constructor; auto. Qed.
Lemma loses_app a a' b b' : loses a a' -> loses b b' -> loses (a ++ b) (a' ++ b').
Proof. induction 1; intros H'; cbn; [exact H'|constructor; auto|constructor; auto]. Qed.
Lemma loses_concat l' l : loses l' l -> concat l' = concat l.
Proof. induction 1; cbn; congruence. Qed.
Lemma loses_empty ts : concat ts = [] -> loses [] ts.
Proof.
  induction ts as [|t ts IH]; cbn; [constructor|]. intros H; apply app_eq_nil in H as [-> H]. constructor; auto.
Qed.
Lemma loses_end l y : y = [] \/ y = [[]] -> loses l (l ++ y).
Proof.
  intros H. rewrite <- (app_nil_r l) at 1. apply loses_app; [apply loses_refl|].
  destruct H as [-> | ->]; repeat constructor.
Qed.
Lemma one_part n : forall y : list (list Z), y = [] \/ y = [[]] -> (firstn n y = [] \/ firstn n y = [[]]) /\ (skipn n y = [] \/ skipn n y = [[]]).
Proof. destruct n; intros y [-> | ->]; cbn; rewrite ?firstn_nil, ?skipn_nil; auto. Qed.
Lemma sl_near l' l s : near l' l -> loses (sl l' s) (sl l s).
Proof.
  intros [->| ->]; [apply loses_refl|]. unfold sl, pyslice. destruct s as [a [b|]]; cbn [fst snd].
  - rewrite skipn_app, firstn_app. apply loses_end. apply one_part, one_part. now right.
  - rewrite skipn_app. apply loses_end. apply one_part. now right.
Qed.
Lemma loses_lines ts : text_lines ts -> forall r, loses r ts -> near r ts.
Proof.
  intros [lines [rest [-> [_ F]]]]. induction F as [|x lines [l [_ ->]] _ IH]; intros r H; cbn [app] in *.
  - inversion H as [|? ? ? H1|? ? H1]; subst; inversion H1; subst; [now left|now right].
  - inversion H as [|? r' ? H1|? ? H1 Hx]; [subst|exfalso; destruct l; discriminate].
    destruct (IH r' H1) as [->|E]; [now left|right]. cbn. now rewrite E.
Qed.

Lemma line_piece x ts z : text_lines (x ++ ts ++ z) -> ~ ends_nl (concat ts) ->
  concat ts = [] \/ lines_of (concat ts) = ts.
Proof.
  intros [lines [rest [E [Hr F]]]] N.
  destruct ts as [|r ts _] using rev_ind; [now left|]. right. apply lines_unique.
  destruct z as [|y z _] using rev_ind.
  - rewrite app_nil_r, app_assoc in E. apply app_inj_tail in E as [E ->]. subst lines.
    apply Forall_app in F as [_ F]. exists ts, rest; auto.
  - exfalso. rewrite !app_assoc in E. apply app_inj_tail in E as [E _]. subst lines.
    rewrite <- !app_assoc in F. apply Forall_app in F as [_ F]. apply Forall_app in F as [_ F].
    cbn [app] in F. apply Forall_inv in F as [l [_ ->]]. apply N.
    exists (concat ts ++ l). rewrite concat_app; cbn. now rewrite app_nil_r, app_assoc.
Qed.

Section Replay.
Variable re_w : Z -> bool.

Lemma encode_line tp : forall st, st_ok st -> source_type st = Some SBytes -> ready KLine st ->
  Forall (fun i => match i with
                   | PData ts => real_contents (CBytes (concat ts)) /\ (concat ts = [] \/ lines_of (concat ts) = ts)
                   | PSlice _ => True end) tp ->
  exists st' pt tp', encode_items re_w KLine st (trimmed (map flat tp)) = (st', Ok pt) /\
    st_ok st' /\ extends st st' /\ source_type st' = Some SBytes /\ ready KLine st' /\
    Forall2 (item_rel (Forall2 (fun t x => name KLine st' t = Some x))) pt tp' /\
    forall l' l, near l' l -> loses (apply tp' l') (apply tp l).
Proof.
  induction tp as [|i tp IH]; intros st Hst S R F; cbn [map].
  - exists st, [], []. split; [reflexivity|]. split; [exact Hst|]. split; [apply extends_refl|].
    repeat (split; [assumption|]). split; [constructor|]. intros; constructor.
  - inversion F as [|? ? Hi F']; subst. unfold trimmed in *; cbn [filter].
    destruct i as [ts|s]; cbn [flat].
    + destruct Hi as [Hr Ht]. destruct (concat ts) as [|c cs] eqn:Hc; cbn [idle nonempty negb].
      * destruct (IH st Hst S R F') as [st' [pt [tp' [E' [O' [X' [S' [R' [F1 F2]]]]]]]]].
        exists st', pt, tp'. repeat (split; [assumption|]). intros l' l Hn.
        unfold apply, join_changes in *; cbn [map concat].
        apply (loses_app [] ts); [now apply loses_empty|now apply F2].
      * destruct Ht as [Ht|Ht]; [discriminate|]. cbn [encode_items].
        destruct (encode_ok re_w KLine st (CBytes (c :: cs)) ts Hst (or_intror S) Hr) as [s1 [toks [E1 [O1 [X1 [S1 [R1 N1]]]]]]].
        { change (Some (lines_of (c :: cs)) = Some ts). now rewrite Ht. }
        rewrite E1. destruct (IH s1 O1 S1 R1 F') as [st' [pt [tp' [E' [O' [X' [S' [R' [F1 F2]]]]]]]]].
        rewrite E'. exists st', (PData toks :: pt), (PData ts :: tp').
        split; [reflexivity|]. split; [exact O'|]. split; [eapply extends_trans; eauto|].
        split; [exact S'|]. split; [exact R'|]. split.
        -- constructor; [|exact F1]. cbn. apply (names_extends KLine s1); auto. congruence.
        -- intros l' l Hn. unfold apply, join_changes in *; cbn [map concat].
           apply loses_app; [apply loses_refl|now apply F2].
    + destruct (IH st Hst S R F') as [st' [pt [tp' [E' [O' [X' [S' [R' [F1 F2]]]]]]]]].
      destruct (idle (PSlice s)) eqn:Hid; cbn [negb].
      * exists st', pt, tp'. repeat (split; [assumption|]). intros l' l Hn.
        unfold apply, join_changes in *; cbn [map concat].
        apply (loses_app []); [|now apply F2]. destruct s as [a [b|]]; cbn in Hid; [|discriminate].
        apply Nat.eqb_eq in Hid; subst. unfold sl, pyslice; cbn. rewrite Nat.sub_diag. constructor.
      * cbn [encode_items]. rewrite E'. exists st', (PSlice s :: pt), (PSlice s :: tp').
        split; [reflexivity|]. repeat (split; [assumption|]). split; [constructor; [reflexivity|exact F1]|].
        intros l' l Hn. unfold apply, join_changes in *; cbn [map concat].
        apply loses_app; [now apply sl_near|now apply F2].
Qed.

Lemma replay_line items tso tsm m st toks tso' :
  patch_between items tso tsm -> storable KLine m -> texts re_w KLine (CBytes m) = Some tsm ->
  Forall calm_item items -> near tso' tso ->
  st_ok st -> source_type st = Some SBytes -> ready KLine st -> names KLine st toks tso' ->
  exists st' pt tsm', encode_items re_w KLine st (trimmed items) = (st', Ok pt) /\
    st_ok st' /\ source_type st' = Some SBytes /\ ready KLine st' /\
    names KLine st' (apply pt toks) tsm' /\ concat tsm' = m /\ near tsm' tsm.
Proof.
  intros [[tp [-> [Ha Hsub]]] _] [Em Lm] Tm Calm Hn Hst S R N.
  pose proof (texts_concat _ _ _ _ Tm) as Ct. cbn [raw] in Ct.
  assert (L : text_lines tsm). { cbn in Tm. injection Tm as <-. apply lines_text. }
  assert (F1 : Forall (fun i => match i with
       | PData ts => real_contents (CBytes (concat ts)) /\ (concat ts = [] \/ lines_of (concat ts) = ts)
       | PSlice _ => True end) tp).
  { rewrite Forall_forall in Calm, Hsub |- *. intros [ts|s] Hi; [|exact Logic.I].
    destruct (Hsub _ Hi) as [x [z Hx]]. split.
    - destruct Em as [Em _]. cbn in *. rewrite <- Ct, Hx, !concat_app in Em.
      apply Forall_app in Em as [_ Em]; now apply Forall_app in Em as [Em _].
    - apply (line_piece x ts z); [now rewrite <- Hx|]. exact (Calm _ (in_map flat _ _ Hi)). }
  destruct (encode_line tp st Hst S R F1) as [st' [pt [tp' [E' [O' [X' [S' [R' [G1 G2]]]]]]]]].
  exists st', pt, (apply tp' tso'). repeat (split; [assumption|]).
  specialize (G2 _ _ Hn). rewrite Ha in G2.
  split; [apply apply_rel; [exact G1|apply (names_extends KLine st); auto; congruence]|].
  split; [rewrite (loses_concat _ _ G2); exact Ct|]. now apply loses_lines.
Qed.
End Replay.
