(** When rendering raises (C57), and merges without conflict. *)
From Coq Require Import String Lia.
From Verif Require Import Base Changesets SpecDiff DiffProofs Merge SpecMerge MergeLaws Tokenizers SpecTokenizers
  TokenizersProofs TokenizersDiff Lines SpecLines LinesProofs LinesMore Markup SpecMarkup MarkupProofs MarkupCli.
Local Open Scope Z_scope.
Local Open Scope list_scope.

(** * Nothing raises without --strikeout *)
Definition usable (m : markup) : Prop :=
  (exists p s, m_into m = Branch p s) /\ (exists p s, m_from m = Branch p s).
Section Escape.
Variable escape : list Z -> list Z.
Lemma flat_usable s b n : (exists p q, b = Branch p q) -> exists r, flat_item escape s b n = Ok r.
Proof. intros [p [q ->]]. eexists; reflexivity. Qed.
Lemma inner_usable l m : usable m -> exists r, inner_stream escape l m = Ok r.
Proof.
  intros [A B]. induction l as [|[s|a b] l [r IH]]; cbn [inner_stream]; [eauto| |]; rewrite IH; cbn [bind]; [eauto|].
  destruct (flat_usable a (m_into m) None A) as [x ->]. destruct (flat_usable b (m_from m) None B) as [y ->].
  destruct (nonempty a), (nonempty b); cbn; eauto.
Qed.
Lemma change_usable x b n m : (exists p q, b = Branch p q) -> usable m ->
  exists r, change_item escape x b n (Some m) = Ok r.
Proof.
  intros B U. destruct x as [s|l]; [now apply flat_usable|]. destruct B as [p [q ->]].
  destruct (inner_usable l m U) as [r E]. cbn. rewrite E. cbn. eauto.
Qed.
Lemma stream_usable l m0 m1 n0 n1 : usable m0 -> usable m1 ->
  snd (markup_stream escape l m0 (Some m1) n0 n1) = None.
Proof.
  intros U0 U1. induction l as [|[s|a b] l IH]; cbn [markup_stream]; [reflexivity|exact IH|].
  destruct (change_usable a (m_into m0) n0 m1 (proj1 U0) U1) as [x ->].
  destruct (change_usable b (m_from m0) n1 m1 (proj2 U0) U1) as [y ->].
  destruct (side_true a), (side_true b); exact IH.
Qed.
Lemma changes_usable l m0 m1 n0 n1 h : usable m0 -> usable m1 ->
  snd (markup_changes escape l m0 (Some m1) n0 n1 h) = None.
Proof. intros U0 U1. destruct h as [[|c h]|]; cbn; now apply stream_usable. Qed.

(** * With a function in the place of the second branch *)
Lemma strike_flat d m0 m1 n0 n1 f : (exists p s, m_into m0 = Branch p s) -> m_from m0 = BFunction f ->
  snd (markup_stream escape (flat_stream d) m0 m1 n0 n1) =
  if existsb (fun i => match i with DChange _ b => nonempty b | DText _ => false end) d then Some TypeError else None.
Proof.
  intros [p [q A]] B. induction d as [|[s|a b] d IH]; [reflexivity|exact IH|].
  cbn [flat_stream map]; fold (flat_stream d); cbn [markup_stream existsb].
  cbn [side_true change_item]. rewrite A, B. destruct b; cbn [nonempty orb].
  - destruct a; exact IH.
  - destruct a; reflexivity.
Qed.
Definition is_ochange (i : oitem) : bool := match i with OChange _ _ => true | OStr _ => false end.
Lemma flat_err x b n e : flat_item escape x b n = Err e -> e = TypeError.
Proof. destruct b; cbn; congruence. Qed.
Lemma inner_err l m e : inner_stream escape l m = Err e -> e = TypeError.
Proof.
  induction l as [|[s|a b] l IH]; cbn [inner_stream]; [discriminate| |].
  - destruct (inner_stream escape l m); cbn; [discriminate|]. intros E; injection E as ->. auto.
  - destruct (if nonempty a then flat_item escape a (m_into m) None else Ok []) eqn:Ea; cbn [bind].
    + destruct (if nonempty b then flat_item escape b (m_from m) None else Ok []) eqn:Eb; cbn [bind].
      * destruct (inner_stream escape l m); cbn; [discriminate|]. intros E; injection E as ->. auto.
      * intros E; injection E as ->. destruct (nonempty b); [now apply flat_err in Eb|discriminate].
    + intros E; injection E as ->. destruct (nonempty a); [now apply flat_err in Ea|discriminate].
Qed.
Lemma strike_lines d m0 m1 n0 n1 f : (exists p s, m_into m0 = Branch p s) -> m_from m0 = BFunction f ->
  sides_present d ->
  snd (markup_stream escape (line_stream d) m0 (Some m1) n0 n1) = if existsb is_ochange d then Some TypeError else None.
Proof.
  intros [p [q A]] B. induction 1 as [|i d H F IH]; [reflexivity|].
  destruct i as [s|a b]; cbn [line_stream map]; fold (line_stream d); cbn [markup_stream existsb is_ochange orb]; [exact IH|].
  destruct H as [Ha Hb]. destruct a as [|x a]; [now destruct Ha|]. destruct b as [|y b]; [now destruct Hb|].
  cbn [side_true nonempty change_item]. rewrite A, B. cbn [subscript bind].
  destruct (inner_stream escape (x :: a) m1) as [r|e] eqn:E; cbn [bind then_print]; [reflexivity|].
  apply inner_err in E as ->. reflexivity.
Qed.
End Escape.

(** * A line diff has a Change iff the diff has one *)
Definition is_dchange (i : ditem Z) : bool := match i with DChange _ _ => true | DText _ => false end.
Section WithSpace.
Variable space : Z -> bool.
Lemma finish_changed s c : existsb is_ochange (fst (finish_conflict s c)) = true /\ in_conflict (snd (finish_conflict s c)) = false.
Proof. unfold finish_conflict. destruct (conditional_add s c). now split. Qed.
Lemma if_changed s : existsb is_ochange (if_nonempty s) = false.
Proof. now destruct s. Qed.
Lemma fragment_changed f c : good c -> existsb is_ochange (fst (handle_fragment space f c)) ||
  in_conflict (snd (handle_fragment space f c)) = in_conflict c || is_dchange f.
Proof.
  intros G. destruct f as [s|a b]; cbn [handle_fragment is_dchange]; [|cbn; now rewrite orb_true_r].
  rewrite orb_false_r.
  destruct (in_conflict c && isspace space s) eqn:SP; [reflexivity|].
  set (r := if finishable c && is_nonempty c then finish_conflict [] c else ([], c)).
  assert (existsb is_ochange (fst r) || in_conflict (snd r) = in_conflict c) as <-.
  { unfold r. destruct (finishable c && is_nonempty c) eqn:E; [|reflexivity].
    destruct (finish_changed [] c) as [-> _]. cbn. apply andb_true_iff in E as [F N].
    destruct (in_conflict c) eqn:IC; [reflexivity|]. destruct (g_same c G IC) as [_ [_ X]].
    unfold is_nonempty in N. destruct (p_into c); [discriminate|]. destruct (p_from c); [discriminate|].
    rewrite X in F by discriminate. discriminate. }
  destruct r as [o1 c1]. cbn [fst snd].
  destruct (split_nl s) as [|first [|x rest]]; cbn [fst snd]; auto.
  set (c2 := fun c' : acc => if nonempty (last (x :: rest) []) then add_frag (last (x :: rest) []) c' else c').
  assert (K : forall c', in_conflict (c2 c') = in_conflict c') by (intros c'; unfold c2; now destruct (nonempty _)).
  destruct (in_conflict c1) eqn:IC.
  - destruct (finish_changed (first ++ [10]) c1) as [F1 F2]. destruct (finish_conflict (first ++ [10]) c1) as [o c'].
    cbn [fst snd] in *. fold (c2 c'). rewrite !existsb_app, F1. cbn. now rewrite !orb_true_r.
  - cbn [fst snd]. fold (c2 c1). rewrite existsb_app, if_changed, K, IC. now rewrite !orb_false_r.
Qed.
Lemma all_changed l : forall c, good c -> existsb is_ochange (fst (handle_all space l c)) ||
  in_conflict (snd (handle_all space l c)) = in_conflict c || existsb is_dchange l.
Proof.
  induction l as [|f l IH]; intros c G; cbn [handle_all existsb]; [now rewrite orb_false_r|].
  destruct (is_true f) eqn:Tf.
  - pose proof (fragment_changed f c G) as S1. pose proof (fragment_good space f c Tf G) as G1.
    destruct (handle_fragment space f c) as [o c1]. cbn [fst snd] in *. specialize (IH c1 G1).
    destruct (handle_all space l c1) as [o' c2]. cbn [fst snd] in *.
    rewrite existsb_app, <- orb_assoc, IH, orb_assoc, S1. now rewrite orb_assoc.
  - rewrite IH by exact G. destruct f as [[|x s]|]; try discriminate. reflexivity.
Qed.
Lemma line_diff_changed l d : to_line_diff space l = Ok d -> existsb is_ochange d = existsb is_dchange l.
Proof.
  unfold to_line_diff. pose proof (all_changed l new_acc good_new) as A.
  destruct (all_good space l new_acc good_new) as [G _].
  destruct (handle_all space l new_acc) as [o c]. cbn [fst snd new_acc in_conflict orb] in *.
  destruct (flush c) as [t|] eqn:Fl; [|discriminate]. cbn [bind]. intros E; injection E as <-.
  rewrite !existsb_app. rewrite <- A. f_equal.
  assert (existsb is_ochange (if existsb is_true l then [] else [OStr []]) = false) as -> by (now destruct (existsb is_true l)).
  rewrite orb_false_r. unfold flush in Fl. destruct (in_conflict c) eqn:IC.
  - injection Fl as <-. now destruct (finish_changed (if finishable c then [] else [10]) c) as [-> _].
  - destruct (p_from c) as [|i p]; [injection Fl as <-; reflexivity|].
    destruct (litem_true i); [|injection Fl as <-; reflexivity].
    destruct (map_res litem_str ((i :: p) ++ [LStr [10]])); [|discriminate]. injection Fl as <-. reflexivity.
Qed.
Lemma loop_changed l : forall a b, (a = [] <-> b = []) -> sides_present l ->
  existsb is_ochange (consolidate_loop l a b) = nonempty a || existsb is_ochange l.
Proof.
  assert (K : forall a b : list litem, (a = [] <-> b = []) -> existsb is_ochange (flush_changes a b) = nonempty a).
  { intros [|x a] [|y b] H; try reflexivity. destruct H as [H _]. discriminate (H eq_refl). }
  induction l as [|[s|x y] l IH]; intros a b A F; cbn [consolidate_loop existsb is_ochange orb].
  - rewrite orb_false_r. now apply K.
  - inversion F; subst. rewrite existsb_app. cbn [existsb is_ochange orb]. rewrite K by exact A. rewrite IH by tauto. reflexivity.
  - inversion F as [|? ? H F']; subst. cbn in H. destruct H as [Hx Hy]. rewrite IH; auto.
    + destruct x; [now destruct Hx|]. destruct a; cbn; now rewrite ?orb_true_r.
    + split; intros E; apply app_eq_nil in E as [_ E]; contradiction.
Qed.
Lemma consolidated_changed l d : consolidated_line_diff space l = Ok d -> existsb is_ochange d = existsb is_dchange l.
Proof.
  unfold consolidated_line_diff. destruct (to_line_diff space l) as [d'|] eqn:E; [|discriminate]. cbn [bind].
  intros H; injection H as <-. unfold consolidate_lines. rewrite loop_changed; [|tauto|eapply line_diff_sides; eauto].
  cbn. now apply line_diff_changed.
Qed.

Variable re_w : Z -> bool.
Lemma initial_usable o allow : o_strikeout o = false \/ allow = false ->
  usable (fst (snd (get_markup_style o allow initial_styles))) /\ usable (snd (snd (get_markup_style o allow initial_styles))) /\
  fst (get_markup_style o allow initial_styles) = initial_styles.
Proof.
  intros H. unfold get_markup_style. assert (o_strikeout o && allow = false) as -> by (destruct H as [->| ->]; [reflexivity|apply andb_false_r]).
  cbn [fst snd]. split; [|split; [|reflexivity]].
  - destruct (o_git o); split; eexists; eexists; reflexivity.
  - destruct (o_output o); split; eexists; eexists; reflexivity.
Qed.
Lemma display_usable o style l n0 n1 h : usable (fst style) -> usable (snd style) ->
  snd (display space o style l n0 n1 h) = None.
Proof.
  intros U0 U1. unfold display, shown. destruct (o_show_lines o || o_git o).
  - destruct (consolidated space l) as [d [-> _]]. cbn [bind]. now apply changes_usable.
  - now apply changes_usable.
Qed.
(** C57: what works is everything without --strikeout *)
Theorem diff_no_strikeout o original modified original_name modified_name :
  o_strikeout o = false -> real_text original -> real_text modified ->
  snd (snd (diff_cli re_w space o original modified original_name modified_name initial_styles)) = None.
Proof.
  intros St Ro Rm. unfold diff_cli. destruct (initial_usable o true (or_introl St)) as [U0 [U1 _]].
  destruct (get_markup_style o true initial_styles) as [g style]. cbn [fst snd] in *.
  destruct (diff_stream re_w (tokenizer_of o) original modified Ro Rm) as [d [-> _]]. cbn [snd].
  now apply display_usable.
Qed.
Theorem merge_no_strikeout o p c t pn cn tn :
  o_strikeout o = false -> real_text p -> real_text c -> real_text t ->
  snd (snd (merge_cli re_w space o p c t pn cn tn initial_styles)) = None.
Proof.
  intros St Rp Rc Rt. unfold merge_cli. set (k := tokenizer_of o).
  destruct (three re_w k p c t Rp Rc Rt) as [s1 [s2 [st [ep [ec [et [tp [tc [tt [E1 [E2 [E3 [O [R [Hsrc [Np [Nc [Nt _]]]]]]]]]]]]]]]]]].
  rewrite E1, E2, E3.
  destruct (diff_accounts tp tc) as [D1 [HD1 _]]. pose proof (diff_texts k st ep ec tp tc D1 O R Np Nc HD1) as X1.
  destruct (diff_accounts tp tt) as [D2 [HD2 _]]. pose proof (diff_texts k st ep et tp tt D2 O R Np Nt HD2) as X2.
  destruct (merge_total KTuple tp tc tt) as [M0 HM]; [discriminate|].
  pose proof (merge_texts k st ep ec et tp tc tt M0 O R Np Nc Nt HM) as HT.
  destruct (diff_token_sequences ep ec) as [d1|]; [|discriminate].
  destruct (diff_token_sequences ep et) as [d2|]; [|discriminate].
  destruct (merge_token_sequence KTuple ep ec et) as [m|]; [|discriminate].
  cbn [bind] in *. rewrite X1, X2, HT. cbn [bind].
  destruct (initial_usable o true (or_introl St)) as [U0 [U1 U2]]. destruct (initial_usable o false (or_introl St)) as [V0 [V1 _]].
  destruct (get_markup_style o true initial_styles) as [g style] eqn:ES. cbn [fst snd] in *. subst g.
  destruct (get_markup_style o false initial_styles) as [g' style'] eqn:ES'. cbn [fst snd] in *.
  destruct (o_diff o).
  - pose proof (fun l n h => display_usable o style l n pn h U0 U1) as Y.
    pose proof (Y (map as_ditem (map (present (src st)) D1)) cn (Some cn)) as Y1.
    pose proof (Y (map as_ditem (map (present (src st)) D2)) tn (Some tn)) as Y2. clear Y.
    destruct (display space o style _ cn pn (Some cn)) as [p1 e1]. cbn in Y1; subst e1.
    destruct (display space o style _ tn pn (Some tn)) as [p2 e2]. cbn in Y2; subst e2.
    rewrite ES'. pose proof (display_usable o style' (map as_ditem (map (present (src st)) M0)) cn tn (Some (str "Merged")) V0 V1) as Y3.
    destruct (display space o style' _ cn tn _) as [p3 e3]. exact Y3.
  - rewrite ES'. pose proof (display_usable o style' (map as_ditem (map (present (src st)) M0)) cn tn None V0 V1) as Y3.
    destruct (display space o style' _ cn tn _) as [p3 e3]. exact Y3.
Qed.

Lemma header_exn escape l m0 m1 a b h :
  snd (markup_changes escape l m0 m1 a b h) = snd (markup_stream escape l m0 m1 a b).
Proof. unfold markup_changes. destruct h as [[|x h]|]; [reflexivity| |reflexivity]. destruct (markup_stream escape l m0 m1 a b); reflexivity. Qed.
(** rendering with a style whose from branch is one of the strikeout functions *)
Lemma display_struck o style d n0 n1 h :
  (exists p s, m_into (fst style) = Branch p s) -> m_from (fst style) = strikeout_level0 ->
  (exists p s, m_into (snd style) = Branch p s) -> m_from (snd style) = strikeout_level1 ->
  snd (display space o style (map as_ditem d) n0 n1 h) = if existsb (removes o) d then Some TypeError else None.
Proof.
  intros A0 B0 A1 B1. unfold display, shown.
  destruct (o_show_lines o || o_git o) eqn:L.
  - destruct (consolidated space (map as_ditem d)) as [l [EL [_ S]]]. rewrite EL. cbn [bind]. rewrite header_exn.
    erewrite strike_lines; eauto. rewrite (consolidated_changed _ _ EL).
    replace (existsb (removes o) d) with (existsb is_dchange (map as_ditem d)); [reflexivity|].
    unfold removes. rewrite L. clear. induction d as [|[t|a b] d IH]; cbn; [reflexivity|exact IH|now rewrite ?IH].
  - cbn [bind]. rewrite header_exn. erewrite strike_flat; eauto.
    match goal with |- (if ?x then _ else _) = (if ?y then _ else _) => replace y with x; [reflexivity|] end.
    unfold removes. rewrite L. clear. induction d as [|[t|a b] d IH]; cbn; [reflexivity|exact IH|now rewrite ?IH].
Qed.
Lemma initial_struck o : o_strikeout o = true ->
  let style := snd (get_markup_style o true initial_styles) in
  (exists p s, m_into (fst style) = Branch p s) /\ m_from (fst style) = strikeout_level0 /\
  (exists p s, m_into (snd style) = Branch p s) /\ m_from (snd style) = strikeout_level1 /\
  snd (get_markup_style o false (fst (get_markup_style o true initial_styles))) = style.
Proof.
  intros St. unfold get_markup_style. rewrite St. cbn [andb fst snd].
  destruct (o_git o), (o_output o); cbn; repeat split; do 2 eexists; reflexivity.
Qed.

(** C57: with --strikeout gaspra-diff raises as soon as something of the original is shown *)
Theorem diff_strikeout o original modified original_name modified_name d :
  o_strikeout o = true -> real_text original -> real_text modified ->
  snd (diff re_w (tokenizer_of o) new_tokenizer (CStr original) (CStr modified)) = Ok d ->
  snd (snd (diff_cli re_w space o original modified original_name modified_name initial_styles)) =
  if existsb (removes o) d then Some TypeError else None.
Proof.
  intros St Ro Rm E. unfold diff_cli. destruct (initial_struck o St) as [A0 [B0 [A1 [B1 _]]]].
  destruct (get_markup_style o true initial_styles) as [g style]. cbn [fst snd] in *. rewrite E. cbn [snd].
  now apply display_struck.
Qed.

(** C57: and gaspra-merge does where one of the two diffs, or the merge after them, has a
    second side to show *)
Theorem merge_strikeout o p c t pn cn tn dc dt m :
  o_strikeout o = true -> o_diff o = true -> real_text p -> real_text c -> real_text t ->
  snd (diff re_w (tokenizer_of o) new_tokenizer (CStr p) (CStr c)) = Ok dc ->
  snd (diff re_w (tokenizer_of o) new_tokenizer (CStr p) (CStr t)) = Ok dt ->
  merge_result re_w o p c t = Ok m ->
  snd (snd (merge_cli re_w space o p c t pn cn tn initial_styles)) =
  if existsb (removes o) (dc ++ dt ++ m) then Some TypeError else None.
Proof.
  intros St Df Rp Rc Rt Hc Ht Hm. unfold merge_cli, merge_result in *. set (k := tokenizer_of o) in *.
  destruct (three re_w k p c t Rp Rc Rt) as [s1 [s2 [st [ep [ec [et [tp [tc [tt [E1 [E2 [E3 [O [R [Hsrc [Np [Nc [Nt [Tp [Tc Tt]]]]]]]]]]]]]]]]]]]].
  rewrite E1, E2, E3 in *. cbn [bind] in Hm.
  destruct (diff_accounts tp tc) as [D1 [HD1 _]]. pose proof (diff_texts k st ep ec tp tc D1 O R Np Nc HD1) as X1.
  destruct (diff_accounts tp tt) as [D2 [HD2 _]]. pose proof (diff_texts k st ep et tp tt D2 O R Np Nt HD2) as X2.
  rewrite Hsrc in X1, X2.
  assert (EN : forall s, real_text s -> encodable k (CStr s)) by (intros s H; split; [exact H|now destruct k]).
  assert (U : forall x tx D d, real_text x -> texts re_w k (CStr x) = Some tx -> diff_token_sequences tp tx = Ok D ->
            snd (diff re_w k new_tokenizer (CStr p) (CStr x)) = Ok d -> map (present SStr) D = d).
  { intros x tx D d Rx Tx HD H.
    destruct (diff_ok re_w k new_tokenizer (CStr p) (CStr x) new_ok (or_introl eq_refl) eq_refl (EN _ Rp) (EN _ Rx))
      as [st' [a [b [D' [Ta [Tb [HD' E]]]]]]]. rewrite E in H. cbn [snd kind_of] in H. congruence. }
  rewrite (U c tc D1 dc Rc Tc HD1 Hc) in X1. rewrite (U t tt D2 dt Rt Tt HD2 Ht) in X2.
  destruct (initial_struck o St) as [A0 [B0 [A1 [B1 F]]]].
  destruct (get_markup_style o true initial_styles) as [g style]. cbn [fst snd] in *.
  destruct (get_markup_style o false g) as [g' style'] eqn:ES'. cbn [snd] in F. subst style'.
  rewrite Df. pose proof (fun d n0 n1 h => display_struck o style d n0 n1 h A0 B0 A1 B1) as Y.
  destruct (diff_token_sequences ep ec) as [d1|]; [|discriminate].
  destruct (diff_token_sequences ep et) as [d2|]; [|discriminate].
  destruct (merge_token_sequence KTuple ep ec et) as [m0|]; [|discriminate].
  cbn [bind] in *. rewrite X1, X2, Hm. cbn [bind]. rewrite !existsb_app.
  pose proof (Y dc cn pn (Some cn)) as Y1. destruct (display space o style (map as_ditem dc) cn pn (Some cn)) as [p1 e1].
  cbn [snd] in Y1. subst e1. destruct (existsb (removes o) dc); [reflexivity|].
  pose proof (Y dt tn pn (Some tn)) as Y2. destruct (display space o style (map as_ditem dt) tn pn (Some tn)) as [p2 e2].
  cbn [snd] in Y2. subst e2. destruct (existsb (removes o) dt); [reflexivity|]. cbn [orb].
  rewrite ES'. pose proof (Y m cn tn (Some (str "Merged"))) as Y3.
  destruct (display space o style (map as_ditem m) cn tn (Some (str "Merged"))) as [p3 e3]. exact Y3.
Qed.

(** without --diff nothing raises, --strikeout or not *)
Theorem merge_no_diff o p c t pn cn tn :
  o_diff o = false -> real_text p -> real_text c -> real_text t ->
  snd (snd (merge_cli re_w space o p c t pn cn tn initial_styles)) = None.
Proof.
  intros Df Rp Rc Rt. unfold merge_cli. set (k := tokenizer_of o).
  destruct (three re_w k p c t Rp Rc Rt) as [s1 [s2 [st [ep [ec [et [tp [tc [tt [E1 [E2 [E3 [O [R [Hsrc [Np [Nc [Nt _]]]]]]]]]]]]]]]]]].
  rewrite E1, E2, E3.
  destruct (merge_total KTuple tp tc tt) as [M0 HM]; [discriminate|].
  pose proof (merge_texts k st ep ec et tp tc tt M0 O R Np Nc Nt HM) as HT.
  destruct (merge_token_sequence KTuple ep ec et) as [m|]; [|discriminate].
  cbn [bind] in *. rewrite Df, HT. cbn [bind].
  destruct (initial_usable o false (or_intror eq_refl)) as [V0 [V1 _]].
  destruct (get_markup_style o false initial_styles) as [g' style'] eqn:ES'. cbn [fst snd] in *.
  pose proof (display_usable o style' (map as_ditem (map (present (src st)) M0)) cn tn None V0 V1) as Y3.
  destruct (display space o style' _ cn tn _) as [p3 e3]. exact Y3.
Qed.

(** * Merges without conflict are printed as they are *)
Theorem merge_prints o p c t pn cn tn m :
  o_output o = true -> o_diff o = false -> o_show_lines o = false -> o_git o = false ->
  real_text p -> real_text c -> real_text t ->
  merge_result re_w o p c t = Ok m -> Forall (fun i => exists s, i = TText s) m ->
  exists out, snd (merge_cli re_w space o p c t pn cn tn initial_styles) = (out, None) /\ concat out = text_after m.
Proof.
  intros Ou Df Sl Gi Rp Rc Rt Em F.
  destruct (merge_cli_run re_w space o p c t pn cn tn initial_styles Df Rp Rc Rt) as [m' [Em' R]].
  rewrite Em in Em'; injection Em' as <-. rewrite R. unfold display, shown. rewrite Sl, Gi. cbn [orb bind markup_changes].
  unfold escape_of. rewrite Ou. generalize (fst (snd (get_markup_style o false initial_styles))).
  generalize (snd (snd (get_markup_style o false initial_styles))). intros m1 m0. clear - F.
  induction F as [|i m [s ->] F [out [IH C]]]; [exists []; now split|].
  cbn [map as_ditem flat_stream]. fold (flat_stream (map as_ditem m)). cbn [markup_stream]. rewrite IH.
  eexists; split; [reflexivity|]. cbn. now rewrite C.
Qed.
Lemma merge_result_one o p c t : real_text p -> real_text c -> real_text t ->
  (c = p -> merge_result re_w o p c t = Ok [TText (CStr t)]) /\
  (t = p \/ t = c -> merge_result re_w o p c t = Ok [TText (CStr c)]).
Proof.
  intros Rp Rc Rt. unfold merge_result. set (k := tokenizer_of o).
  destruct (three re_w k p c t Rp Rc Rt) as [s1 [s2 [st [ep [ec [et [tp [tc [tt [E1 [E2 [E3 [O [R [Hsrc [Np [Nc [Nt [Tp [Tc Tt]]]]]]]]]]]]]]]]]]]].
  rewrite E1, E2, E3. cbn [bind].
  assert (H : forall M0, merge_token_sequence KTuple tp tc tt = Ok M0 ->
    (let* m := merge_token_sequence KTuple ep ec et in decode_changes k st m) = Ok (map (present SStr) M0)).
  { intros M0 HM. rewrite <- Hsrc. now apply (merge_texts k st ep ec et tp tc tt). }
  split.
  - intros ->. rewrite Tp in Tc; injection Tc as <-. rewrite (H [DText tt]) by apply merge_left. cbn.
    now rewrite (texts_concat _ _ _ _ Tt).
  - intros [->| ->].
    + rewrite Tp in Tt; injection Tt as <-. rewrite (H [DText tc]) by apply merge_right. cbn.
      now rewrite (texts_concat _ _ _ _ Tc).
    + rewrite Tc in Tt; injection Tt as <-. rewrite (H [DText tc]) by apply merge_same. cbn.
      now rewrite (texts_concat _ _ _ _ Tc).
Qed.
Theorem merge_prints_one o p c t pn cn tn :
  o_output o = true -> o_diff o = false -> o_show_lines o = false -> o_git o = false ->
  real_text p -> real_text c -> real_text t ->
  exists out, snd (merge_cli re_w space o p c t pn cn tn initial_styles) = (out, None) /\
    (c = p -> concat out = t) /\ (t = p \/ t = c -> concat out = c).
Proof.
  intros Ou Df Sl Gi Rp Rc Rt. destruct (merge_result_one o p c t Rp Rc Rt) as [A B].
  pose proof (fun m => merge_prints o p c t pn cn tn m Ou Df Sl Gi Rp Rc Rt) as P.
  destruct (merge_stream re_w o p c t Rp Rc Rt) as [m [Em _]].
  pose proof (merge_cli_run re_w space o p c t pn cn tn initial_styles Df Rp Rc Rt) as [m' [Em' R]].
  rewrite Em in Em'; injection Em' as <-.
  destruct (snd (merge_cli re_w space o p c t pn cn tn initial_styles)) as [out e] eqn:EC.
  assert (e = None) as ->.
  { pose proof (display_usable o (snd (get_markup_style o false initial_styles)) (map as_ditem m) cn tn None) as D.
    destruct (initial_usable o false (or_intror eq_refl)) as [U0 [U1 _]]. specialize (D U0 U1). now rewrite <- R in D. }
  exists out. split; [reflexivity|]. split; intros H.
  - destruct (P _ (A H)) as [out' [E C]]; [repeat constructor; eauto|]. injection E as <-. rewrite C. cbn. apply app_nil_r.
  - destruct (P _ (B H)) as [out' [E C]]; [repeat constructor; eauto|]. injection E as <-. rewrite C. cbn. apply app_nil_r.
Qed.
End WithSpace.
