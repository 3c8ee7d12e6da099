(** gaspra-diff and gaspra-merge from the files to their output (C103, C104). *)
From Coq Require Import String Lia.
From Verif Require Import Base Changesets SpecDiff DiffProofs SpecGreedy DiffGreedy Merge SpecMerge MergeLaws Tokenizers SpecTokenizers TokenizersProofs
  TokenizersDiff SpecTokens TokensProofs Lines SpecLines LinesProofs LinesMore LinesConflict Markup SpecMarkup MarkupProofs MarkupCli SpecMarks LinesMarks MarksCli
  Rich SpecConsole ConsoleProofs Files SpecFiles FilesProofs CommandLine SpecCommandLine CommandLineRuns SpecPrograms ProgramsConsole.
Local Open Scope Z_scope.
Local Open Scope list_scope.

Lemma joined_as D : map as_ditem (map (present SStr) D) = joined D.
Proof. unfold joined. rewrite map_map. apply map_ext. intros []; reflexivity. Qed.
Lemma joined_cat D : joined D = map cat_item D.
Proof. now rewrite <- joined_as, as_present. Qed.
Lemma joined_after D : diff_after (joined D) = concat (diff_after D).
Proof. rewrite joined_cat. apply cat_after. Qed.
Lemma joined_before D : diff_before (joined D) = concat (diff_before D).
Proof. rewrite joined_cat. apply cat_before. Qed.
Lemma joined_apart (M : list (ditem (list Z))) : normal_merge M -> no_text_twice (visible (joined M)).
Proof.
  intros N. apply alternating_visible. unfold joined. destruct N as [->|[_ [A _]]].
  - intros [|[|k']] x y H; discriminate.
  - intros i x y H1 H2. rewrite nth_error_map in H1, H2.
    destruct (nth_error M i) as [u|] eqn:U; [|discriminate]. destruct (nth_error M (S i)) as [v|] eqn:W; [|discriminate].
    injection H1 as <-; injection H2 as <-.
    destruct (A i u v U W) as [[[x ->] [y [z ->]]]|[[x [y ->]] [z ->]]]; [left|right]; split; eexists; try eexists; reflexivity.
Qed.

Lemma filter_true {A} (f : A -> bool) l : (forall x, In x l -> f x = true) -> filter f l = l.
Proof. induction l as [|x l IH]; intros H; [reflexivity|]. cbn. rewrite (H x (or_introl eq_refl)), IH; auto with datatypes. Qed.

Section Lined.
Variable re_w space : Z -> bool.
Lemma consolidated_twice l d : consolidated_line_diff space l = Ok d -> no_change_twice d.
Proof.
  unfold consolidated_line_diff. destruct (to_line_diff space l); [|discriminate]. intros H. injection H as <-. apply consolidate_ok.
Qed.
Lemma lined_diff k p c tp tc D : k <> KNull -> real_text p -> real_text c -> units re_w k (CStr p) tp -> units re_w k (CStr c) tc ->
  diff_token_sequences tp tc = Ok D ->
  no_text_twice (visible (joined D)) /\ diff_before (joined D) = p /\ diff_after (joined D) = c /\
  exists d, consolidated_line_diff space (joined D) = Ok d /\ lined space (joined D) d.
Proof.
  intros K Rp Rc Up Uc HD. destruct (diff_real re_w k p c Rp Rc) as (d & Ed & B & A & Al & Re).
  destruct (diff_units re_w k [] (CStr p) (CStr c)) as (st & D' & tp' & tc' & E & Up' & Uc' & HD' & _); auto.
  { split; [exact Rp|now destruct k]. } { split; [exact Rc|now destruct k]. }
  rewrite (units_unique re_w k _ _ _ Up' Up), (units_unique re_w k _ _ _ Uc' Uc), HD in HD'. injection HD' as <-.
  cbn [after fold_left] in E. change (after re_w k new_tokenizer []) with new_tokenizer in E. rewrite E in Ed. injection Ed as <-.
  cbn [kind_of] in *. change (pieces SStr) with (present SStr) in *. rewrite joined_as in *.
  split; [now apply alternating_texts|]. split; [exact B|]. split; [exact A|].
  destruct (consolidated_marks space (joined D) Al Re) as (l & R & EL & S & X & Bu).
  destruct (consolidated space (joined D)) as (l' & EL' & W & _). rewrite EL in EL'. injection EL' as <-.
  exists l. split; [exact EL|]. exists R. repeat (split; [assumption|]). eapply consolidated_twice, EL.
Qed.
Lemma lined_merge l (M : list (ditem (list Z))) : normal_merge M -> (without l FLines -> forall x, In x (tokens M) -> x <> []) ->
  exists d, consolidated_line_diff space (joined M) = Ok d /\ merge_lined space l (joined M) d.
Proof.
  intros N T0. destruct (consolidated_texts space (joined M) (joined_apart M N)) as (d & tail & E & T & I & F).
  destruct (consolidated space (joined M)) as (d' & E' & W & _). rewrite E in E'. injection E' as <-.
  pose proof (consolidated_twice _ _ E) as Tw.
  exists d. split; [exact E|]. split; [split; [exact W|]; split; [exact Tw|]; split; [exact (changes_kept space _ _ E)|]; exists tail|].
  { split; [exact T|]. split; [|now split]. intros A. destruct (consolidated_tail space (joined M) A) as [d' [E' [I' _]]].
    rewrite E in E'. injection E' as <-. rewrite I in I'. now apply app_inv_head in I'. }
  intros WL.
  assert (Z0 : forall w : list (list Z), (forall x, In x w -> In x (tokens M)) -> concat w = [] -> w = []).
  { intros [|x w] H C; [reflexivity|]. apply app_eq_nil in C as [-> _]. now destruct (T0 WL [] (H [] (or_introl eq_refl))). }
  assert (In_text : forall x u, In (DText u) M -> In x u -> In x (tokens M)) by (intros x u Hu Hx; unfold tokens; apply in_flat_map; eauto).
  assert (In_change : forall x u v, In (DChange u v) M -> In x u \/ In x v -> In x (tokens M))
    by (intros x u v Hu Hx; unfold tokens; apply in_flat_map; exists (DChange u v); split; [exact Hu|now apply in_app_iff]).
  assert (Al : alternating (visible (joined M))).
  { destruct N as [->|[_ [A Fo]]]; [intros [|k] x y Hx; discriminate|].
    replace (visible (joined M)) with (joined M).
    - unfold joined. intros i x y H1 H2. rewrite nth_error_map in H1, H2.
      destruct (nth_error M i) as [u|] eqn:U; [|discriminate]. destruct (nth_error M (S i)) as [v|] eqn:V; [|discriminate].
      injection H1 as <-; injection H2 as <-.
      destruct (A i u v U V) as [[[x ->] [y [z ->]]]|[[x [y ->]] [z ->]]]; [left|right]; split; eexists; try eexists; reflexivity.
    - unfold visible. symmetry. apply filter_true. intros i Hi. unfold joined in Hi. apply in_map_iff in Hi as ([u|u v] & <- & Hi); [|reflexivity].
      destruct (concat u) as [|c r] eqn:Cu; [|reflexivity]. rewrite Forall_forall in Fo. destruct (Fo _ Hi). apply Z0; eauto. }
  assert (Re : real_changes (joined M)).
  { intros Hi. unfold joined in Hi. apply in_map_iff in Hi as ([u|u v] & Ei & Hi); [discriminate|]. injection Ei as Eu Ev.
    destruct N as [->|[_ [_ Fo]]]; [destruct Hi as [Hi|[]]; discriminate|]. rewrite Forall_forall in Fo. destruct (Fo _ Hi) as [Nn _].
    apply Nn. split; apply Z0; eauto. }
  destruct (consolidated_marks space (joined M) Al Re) as (l' & R & EL & S' & X & Bu). rewrite E in EL. injection EL as <-.
  exists R. repeat (split; [assumption|]). exact Tw.
Qed.

Lemma units_nonempty k s ts : k <> KLine -> units re_w k (CStr s) ts -> forall x, In x ts -> x <> [].
Proof.
  intros K [_ U] x Hx ->. destruct k; cbn in U; [| |now destruct K|].
  1,2: rewrite Forall_forall in U; specialize (U _ Hx); discriminate.
  destruct U as [U _]. rewrite Forall_forall in U. destruct (U _ Hx) as [[W _]|(c & E & _)]; [now destruct W|discriminate].
Qed.
Lemma merged_units l o tp ti tf M si sf : asks l o -> units re_w (tokenizer_of o) (CStr si) ti -> units re_w (tokenizer_of o) (CStr sf) tf ->
  merge_token_sequence KTuple tp ti tf = Ok M -> without l FLines -> forall x, In x (tokens M) -> x <> [].
Proof.
  intros A Ui Uf HM W x Hx.
  assert (K : tokenizer_of o <> KLine).
  { unfold tokenizer_of. destruct (o_words o); [discriminate|]. destruct (o_lines o) eqn:OL; [|discriminate]. destruct W. now apply A. }
  destruct (merge_tokens KTuple tp ti tf M HM x Hx); eauto using units_nonempty.
Qed.

(** * What is displayed *)
Definition style (o : options) : markup * markup :=
  (if o_git o then GIT_MARKUP_LEVEL0 else COLORED_LEVEL0, if o_output o then PLAIN_LEVEL1 else COLORED_LEVEL1).
Lemma style_is o b : o_strikeout o = false -> get_markup_style o b initial_styles = (initial_styles, style o).
Proof. intros S. unfold get_markup_style. rewrite S. reflexivity. Qed.
Definition header_text (o : options) (h : option (list Z)) : list Z :=
  match h with None => [] | Some n => if o_git o then git_heading n else heading n end.
Lemma header_display o l m n0 n1 h e : exists x, concat x = (match h with Some ((_ :: _) as n) => show_header n (fst (style o)) | _ => [] end) /\
  markup_changes e l (fst (style o)) m n0 n1 h = (x ++ fst (markup_stream e l (fst (style o)) m n0 n1), snd (markup_stream e l (fst (style o)) m n0 n1)).
Proof.
  unfold markup_changes. destruct h as [[|c n]|].
  - exists []. split; [reflexivity|]. cbn. now destruct (markup_stream _ _ _ _ _ _).
  - exists [show_header (c :: n) (fst (style o))]. split; [apply app_nil_r|reflexivity].
  - exists []. split; [reflexivity|]. cbn. now destruct (markup_stream _ _ _ _ _ _).
Qed.
Lemma header_shown o h : match h with Some ((_ :: _) as n) => show_header n (fst (style o)) | _ => [] end = header_text o h.
Proof.
  destruct h as [[|c n]|]; cbn [header_text]; [now destruct (o_git o)| |reflexivity].
  unfold style. cbn [fst]. destruct (o_git o); unfold show_header.
  - cbn [m_header GIT_MARKUP_LEVEL0 fst snd git_heading]. rewrite app_nil_r. reflexivity.
  - cbn [m_header COLORED_LEVEL0 fst snd heading]. reflexivity.
Qed.

(** ** In a file *)
Lemma flat_file m1 n0 n1 D : exists x, markup_stream (fun s => s) (flat_stream D) COLORED_LEVEL0 m1 n0 n1 = (x, None) /\ concat x = flat_text D.
Proof.
  induction D as [|[t|a b] D [x [E C]]]; [now exists []| |]; cbn [flat_stream map markup_stream flat_text flat_map];
    fold (flat_stream D); fold (flat_text D); rewrite E.
  - eexists. split; [reflexivity|]. cbn [fst concat]. now rewrite C.
  - destruct a as [|ca a], b as [|cb b]; cbn [side_true nonempty change_item flat_item m_into m_from m_separator COLORED_LEVEL0 subscript bind then_print fst snd];
      (eexists; split; [reflexivity|]); cbn [concat]; rewrite C; unfold const; cbn [tagged app]; rewrite <- ?app_assoc; reflexivity.
Qed.
Lemma line_file n0 n1 d : sides_present d -> exists x, markup_stream (fun s => s) (line_stream d) COLORED_LEVEL0 (Some PLAIN_LEVEL1) n0 n1 = (x, None) /\ concat x = line_text d.
Proof.
  induction 1 as [|i d H F [x [E C]]]; [now exists []|]. destruct i as [t|a b]; cbn [line_stream map markup_stream line_text flat_map];
    fold (line_stream d); fold (line_text d); rewrite E.
  - eexists. split; [reflexivity|]. cbn [fst concat]. now rewrite C.
  - destruct H as [Ha Hb].
    assert (side_true (Nested a) = true) as -> by (destruct a; [congruence|reflexivity]).
    assert (side_true (Nested b) = true) as -> by (destruct b; [congruence|reflexivity]).
    cbn [change_item m_into m_from m_separator COLORED_LEVEL0 subscript bind then_print fst snd]. rewrite !inner_plain. cbn [bind then_print fst snd].
    eexists. split; [reflexivity|]. cbn [concat]. rewrite C. unfold const, between. cbn [app]. rewrite <- ?app_assoc. reflexivity.
Qed.
Lemma display_file l o (line : list (ditem Z) -> list oitem -> Prop) D n0 n1 h d : asks l o -> o_output o = true ->
  consolidated_line_diff space D = Ok d -> line D d ->
  exists x text, display space o (style o) D n0 n1 h = (x, None) /\ concat x = header_text o h ++ text /\ written_as l line n0 n1 D text.
Proof.
  intros (_ & _ & _ & A4 & A5 & _) Ou E L. unfold display, Markup.shown, escape_of. rewrite Ou.
  destruct (consolidated space D) as (d' & E' & _ & SP). rewrite E in E'. injection E' as <-. rewrite E. cbn [bind].
  assert (X : forall s, exists x, concat x = header_text o h /\
    markup_changes (fun s => s) s (fst (style o)) (Some (snd (style o))) (Some n0) (Some n1) h =
    (x ++ fst (markup_stream (fun s => s) s (fst (style o)) (Some (snd (style o))) (Some n0) (Some n1)),
     snd (markup_stream (fun s => s) s (fst (style o)) (Some (snd (style o))) (Some n0) (Some n1)))).
  { intros s. destruct (header_display o s (Some (snd (style o))) (Some n0) (Some n1) h (fun s => s)) as (x & C & EX). rewrite header_shown in C. eauto. }
  destruct (o_git o) eqn:G.
  - rewrite Bool.orb_true_r. destruct (X (line_stream d)) as (x & C & ->). destruct (git_printed n0 n1 d SP) as (y & Ey & Cy).
    unfold style. rewrite G, Ou. cbn [fst snd]. rewrite Ey. exists (x ++ y), (git_text n0 n1 d). split; [reflexivity|]. split; [now rewrite concat_app, C, Cy|].
    assert (IG : In (Flag FGit) l) by now apply A5.
    split; [intros _ N; now destruct (N IG)|]. split; [intros _ N; now destruct (N IG)|]. eauto.
  - assert (NG : ~ In (Flag FGit) l) by (intros K; apply A5 in K; discriminate). rewrite Bool.orb_false_r.
    destruct (o_show_lines o) eqn:S.
    + destruct (X (line_stream d)) as (x & C & ->). destruct (line_file (Some n0) (Some n1) d SP) as (y & Ey & Cy).
      unfold style. rewrite G, Ou. cbn [fst snd]. rewrite Ey. exists (x ++ y), (line_text d). split; [reflexivity|]. split; [now rewrite concat_app, C, Cy|].
      assert (IL : In (Flag FShowLines) l) by now apply A4.
      split; [intros N; now destruct (N IL)|]. split; [eauto|]. intros K. now destruct (NG K).
    + assert (NL : ~ In (Flag FShowLines) l) by (intros K; apply A4 in K; discriminate).
      destruct (X (flat_stream D)) as (x & C & ->). destruct (flat_file (Some (snd (style o))) (Some n0) (Some n1) D) as (y & Ey & Cy).
      unfold style in Ey |- *. rewrite G in Ey |- *. rewrite Ou in Ey |- *. cbn [fst snd] in *. rewrite Ey. exists (x ++ y), (flat_text D). split; [reflexivity|].
      split; [now rewrite concat_app, C, Cy|]. split; [reflexivity|]. split; intros K; [now destruct (NL K)|now destruct (NG K)].
Qed.

(** ** On the console *)
Section Screen.
Variable sp : Z -> bool.
Variable emoji : list Z -> option (list Z).
Variable normalize : list Z -> list Z.
Notation harmless := (harmless sp emoji).
Notation on_console := (on_console sp emoji normalize).
Lemma console_app x c y d : on_console (x, None) = (c, None) -> on_console (y, None) = (d, None) -> on_console (x ++ y, None) = (c ++ d, None).
Proof.
  unfold Rich.on_console. cbn [fst snd]. revert c. induction x as [|s x IH]; intros c H K; cbn [print_all app] in *.
  - injection H as <-. exact K.
  - destruct (render sp emoji normalize s) as [r|]; [|discriminate].
    destruct (print_all sp emoji normalize x None) as [c' e]. injection H as <- ->. rewrite (IH c' eq_refl K). now rewrite app_assoc.
Qed.
Definition header_cells (o : options) (h : option (list Z)) : list cell :=
  match h with None => [] | Some n => if o_git o then git_heading_cells n else heading_cells normalize n end.
Lemma header_screen o l m n0 n1 h e cells : match h with Some n => simple_name n | None => True end ->
  on_console (markup_stream e l (fst (style o)) m n0 n1) = (cells, None) ->
  on_console (markup_changes e l (fst (style o)) m n0 n1 h) = (header_cells o h ++ cells, None).
Proof.
  intros S H. unfold markup_changes. destruct h as [[|c n]|]; [replace (header_cells o (Some [])) with (@nil cell) by (cbn; now destruct (o_git o)); exact H| |exact H].
  destruct (markup_stream e l (fst (style o)) m n0 n1) as [x er]. cbn [then_print fst snd].
  unfold Rich.on_console in *. cbn [fst snd] in *.
  assert (R : render sp emoji normalize (show_header (c :: n) (fst (style o))) = Ok (header_cells o (Some (c :: n)))).
  { unfold style, header_cells. cbn [fst]. destruct (o_git o).
    - unfold show_header. cbn [m_header GIT_MARKUP_LEVEL0 fst snd app git_heading_cells]. rewrite app_nil_r.
      apply (render_simple sp emoji normalize ([10] ++ c :: n)). exact (simple_app [10] (c :: n) simple_nl S).
    - apply heading_exact; [exact S|discriminate]. }
  rewrite (print_cons sp emoji normalize _ _ _ _ R), H. reflexivity.
Qed.
Lemma display_screen l o (line : list (ditem Z) -> list oitem -> Prop) D n0 n1 h d : asks l o -> o_output o = false ->
  consolidated_line_diff space D = Ok d -> line D d -> no_text_twice (visible D) ->
  harmless (diff_after D) -> harmless (diff_before D) -> (In (Flag FGit) l -> simple_name n0 /\ simple_name n1) ->
  match h with Some n => simple_name n | None => True end ->
  exists x cells, display space o (style o) D n0 n1 h = (x, None) /\ on_console (x, None) = (header_cells o h ++ cells, None) /\
    shown_as normalize l line n0 n1 D cells.
Proof.
  intros (_ & _ & _ & A4 & A5 & _) Ou E L NT Ha Hb SN SH. unfold display, Markup.shown, escape_of. rewrite Ou.
  destruct (consolidated space D) as (d' & E' & _ & SP). rewrite E in E'. injection E' as <-.
  destruct (consolidated_texts space D NT) as (d' & tail & E' & T & I & F). rewrite E in E'. injection E' as <-. rewrite E. cbn [bind].
  assert (HT : forall s, harmless s -> harmless (s ++ tail)).
  { intros s Hs. destruct T as [-> | ->]; [now rewrite app_nil_r|]. apply harmless_back; [apply simple_nl|exact Hs]. }
  assert (Hi : harmless (into_text d)) by (rewrite I; auto). assert (Hf : harmless (from_text d)) by (rewrite F; auto).
  assert (X : forall s cells, on_console (markup_stream rich_escape s (fst (style o)) (Some (snd (style o))) (Some n0) (Some n1)) = (cells, None) ->
    exists x, markup_changes rich_escape s (fst (style o)) (Some (snd (style o))) (Some n0) (Some n1) h = (x, None) /\
              on_console (x, None) = (header_cells o h ++ cells, None)).
  { intros s cells H. apply (header_screen o s (Some (snd (style o))) (Some n0) (Some n1) h rich_escape cells SH) in H.
    destruct (markup_changes _ _ _ _ _ _ h) as [x e]. exists x.
    assert (e = None) as ->; [|now split]. clear - H. unfold Rich.on_console in H. cbn [fst snd] in H.
    revert H. generalize (header_cells o h ++ cells). induction x as [|s x IH]; intros c H; cbn [print_all] in H; [congruence|].
    destruct (render sp emoji normalize s); [|discriminate]. destruct (print_all sp emoji normalize x e) as [c' e'] eqn:P.
    injection H as <- ->. eauto. }
  destruct (o_git o) eqn:G.
  - assert (IG : In (Flag FGit) l) by now apply A5. destruct (SN IG) as [S0 S1].
    rewrite Bool.orb_true_r. destruct (X (line_stream d) (git_cells normalize n0 n1 d)) as (x & Ex & Cx).
    { unfold style. rewrite G, Ou. cbn [fst snd]. now apply git_exact. }
    exists x, (git_cells normalize n0 n1 d). split; [exact Ex|]. split; [exact Cx|].
    split; [intros _ N; now destruct (N IG)|]. split; [intros _ N; now destruct (N IG)|]. eauto.
  - assert (NG : ~ In (Flag FGit) l) by (intros K; apply A5 in K; discriminate). rewrite Bool.orb_false_r.
    destruct (o_show_lines o) eqn:S.
    + destruct (X (line_stream d) (line_cells normalize d)) as (x & Ex & Cx).
      { unfold style. rewrite G, Ou. cbn [fst snd]. rewrite <- line_exact. apply stream_exact; [now rewrite line_new|now rewrite line_old]. }
      exists x, (line_cells normalize d). split; [exact Ex|]. split; [exact Cx|].
      assert (IL : In (Flag FShowLines) l) by now apply A4.
      split; [intros N; now destruct (N IL)|]. split; [eauto|]. intros K. now destruct (NG K).
    + assert (NL : ~ In (Flag FShowLines) l) by (intros K; apply A4 in K; discriminate).
      destruct (X (flat_stream D) (flat_cells normalize D)) as (x & Ex & Cx).
      { unfold style. rewrite G, Ou. cbn [fst snd]. rewrite <- flat_exact. apply stream_exact; [now rewrite flat_new|now rewrite flat_old]. }
      exists x, (flat_cells normalize D). split; [exact Ex|]. split; [exact Cx|].
      split; [reflexivity|]. split; intros K; [now destruct (NL K)|now destruct (NG K)].
Qed.
End Screen.

(** * The two programs on texts *)
Lemma diff_cli_parts o p c : o_strikeout o = false -> real_text p -> real_text c ->
  exists tp tc D, units re_w (tokenizer_of o) (CStr p) tp /\ units re_w (tokenizer_of o) (CStr c) tc /\ diff_token_sequences tp tc = Ok D /\
    forall pn cn, snd (diff_cli re_w space o p c pn cn initial_styles) = display space o (style o) (joined D) (escape_of o cn) (escape_of o pn) None.
Proof.
  intros St Rp Rc. assert (KN : tokenizer_of o <> KNull) by (unfold tokenizer_of; destruct (o_words o), (o_lines o); discriminate).
  destruct (diff_units re_w (tokenizer_of o) [] (CStr p) (CStr c)) as (st & D & tp & tc & E & Up & Uc & HD & _); auto.
  { split; [exact Rp|now destruct (tokenizer_of o)]. } { split; [exact Rc|now destruct (tokenizer_of o)]. }
  exists tp, tc, D. repeat (split; [assumption|]). intros pn cn. unfold diff_cli. rewrite style_is by exact St.
  change (after re_w (tokenizer_of o) new_tokenizer []) with new_tokenizer in E. rewrite E. cbn [snd kind_of].
  change (pieces SStr) with (present SStr). now rewrite joined_as.
Qed.
Lemma merge_cli_parts o p c t : o_strikeout o = false -> real_text p -> real_text c -> real_text t ->
  exists tp tc tt Dc Dt M, units re_w (tokenizer_of o) (CStr p) tp /\ units re_w (tokenizer_of o) (CStr c) tc /\ units re_w (tokenizer_of o) (CStr t) tt /\
    diff_token_sequences tp tc = Ok Dc /\ diff_token_sequences tp tt = Ok Dt /\ merge_token_sequence KTuple tp tc tt = Ok M /\
    forall pn cn tn,
    (o_diff o = false -> snd (merge_cli re_w space o p c t pn cn tn initial_styles) = display space o (style o) (joined M) cn tn None) /\
    (o_diff o = true -> forall x1 x2 x3, display space o (style o) (joined Dc) cn pn (Some cn) = (x1, None) ->
      display space o (style o) (joined Dt) tn pn (Some tn) = (x2, None) ->
      display space o (style o) (joined M) cn tn (Some (str "Merged")) = (x3, None) ->
      snd (merge_cli re_w space o p c t pn cn tn initial_styles) = (x1 ++ x2 ++ x3, None)).
Proof.
  intros St Rp Rc Rt. set (k := tokenizer_of o).
  destruct (three re_w k p c t Rp Rc Rt) as (s1 & s2 & st & ep & ec & et & tp & tc & tt & E1 & E2 & E3 & O & R & Hsrc & Np & Nc & Nt & Tp & Tc & Tt).
  destruct (diff_accounts tp tc) as [Dc [HDc _]]. destruct (diff_accounts tp tt) as [Dt [HDt _]].
  destruct (merge_total KTuple tp tc tt) as [M HM]; [discriminate|].
  exists tp, tc, tt, Dc, Dt, M. repeat (split; [now apply texts_units|]). repeat (split; [assumption|]). intros pn cn tn.
  pose proof (merge_texts k st ep ec et tp tc tt M O R Np Nc Nt HM) as HT.
  pose proof (diff_texts k st ep ec tp tc Dc O R Np Nc HDc) as H1. pose proof (diff_texts k st ep et tp tt Dt O R Np Nt HDt) as H2.
  rewrite Hsrc in *. unfold merge_cli. fold k. rewrite E1, E2, E3.
  destruct (merge_token_sequence KTuple ep ec et) as [m|]; [|discriminate]. destruct (diff_token_sequences ep ec) as [d1|]; [|discriminate].
  destruct (diff_token_sequences ep et) as [d2|]; [|discriminate]. cbn [bind] in *. rewrite HT, H1, H2. cbn [bind]. rewrite !joined_as.
  rewrite !style_is by exact St. split; intros ->.
  - rewrite style_is by exact St. destruct (display space o (style o) (joined M) cn tn None); reflexivity.
  - intros x1 x2 x3 -> -> X3. rewrite style_is by exact St. rewrite X3. cbn [snd]. now rewrite app_assoc.
Qed.
End Lined.

(** * The programs *)
Lemma asked l : compatible (flags_of l) -> exists o, asks l o /\ unit_asked l (tokenizer_of o).
Proof.
  intros C. set (n := mkNs (operands_of l) (flags_of l) (last_output l) false).
  assert (G : forall f, flag_given n f = true <-> In (Flag f) l) by (intros f; rewrite flag_given_in; cbn [n_flags]; apply in_flags).
  exists (mkOptions (match last_output l with Some _ => true | None => false end) (flag_given n FWords) (flag_given n FLines) (flag_given n FShowLines)
    (flag_given n FGit) (flag_given n FStrikeout) (flag_given n FDiff)).
  split.
  - unfold asks. cbn [o_output o_words o_lines o_show_lines o_git o_strikeout o_diff]. rewrite !G.
    split; [|tauto]. destruct (last_output l); split; congruence.
  - unfold tokenizer_of. cbn [o_words o_lines]. destruct (flag_given n FWords) eqn:W; [apply ask_words; now apply G|].
    destruct (flag_given n FLines) eqn:L; [apply ask_lines; now apply G|].
    apply ask_characters; intros K; apply G in K; congruence.
Qed.
Lemma headed_text l o n text : asks l o -> headed l n text (header_text o (Some n) ++ text).
Proof.
  intros (_ & _ & _ & _ & A5 & _). unfold headed, header_text. destruct (o_git o); split; intros H; auto.
  - exfalso. apply H. now apply A5.
  - apply A5 in H. discriminate.
Qed.
Lemma headed_cells_of normalize l o n cells : asks l o -> headed_cells normalize l n cells (header_cells normalize o (Some n) ++ cells).
Proof.
  intros (_ & _ & _ & _ & A5 & _). unfold headed_cells, header_cells. destruct (o_git o); split; intros H; auto.
  - exfalso. apply H. now apply A5.
  - apply A5 in H. discriminate.
Qed.
Lemma reads_real fs n x : real_files fs -> dget fs n = Some x -> real_text (read_text x).
Proof.
  intros RF Gx. destruct (every_file_reads fs [n] RF) as (ts & T & _ & F); [repeat constructor; unfold dmem; rewrite Gx; reflexivity|].
  cbn [get_text] in T. rewrite Gx in T. injection T as <-. inversion F as [|? ? [F1 _] _]; subst. apply scalar_real. exact F1.
Qed.

Section Programs.
Variable linesep : list Z.
Variable re_w space digit sp : Z -> bool.
Variable emoji : list Z -> option (list Z).
Variable normalize : list Z -> list Z.
Hypothesis DO : digit_ok digit.
Notation diff_program := (gaspra_diff linesep re_w space digit sp emoji normalize).
Notation merge_program := (gaspra_merge linesep re_w space digit sp emoji normalize).
Notation units := (units re_w).
Notation harmless := (harmless sp emoji).

Lemma known o : tokenizer_of o <> KNull.
Proof. unfold tokenizer_of. destruct (o_words o), (o_lines o); discriminate. Qed.
Lemma output_asked l o : asks l o -> (forall out, last_output l = Some out -> o_output o = true) /\ (last_output l = None -> o_output o = false).
Proof.
  intros (A & _). split; [intros out E; apply A; congruence|]. intros E. destruct (o_output o); [|reflexivity]. now destruct (proj1 A eq_refl).
Qed.
Lemma with_output_same o : o_output o = true -> with_output o = o.
Proof. destruct o as [[]]; cbn; [reflexivity|discriminate]. Qed.
Lemma not_struck l o : asks l o -> without l FStrikeout -> o_strikeout o = false.
Proof. intros (_ & _ & _ & _ & _ & A & _) N. destruct (o_strikeout o); [|reflexivity]. now destruct (N (proj1 A eq_refl)). Qed.
Lemma diffs_asked l o : asks l o -> (without l FDiff -> o_diff o = false) /\ (In (Flag FDiff) l -> o_diff o = true).
Proof.
  intros (_ & _ & _ & _ & _ & _ & A). split; [|apply A]. intros N. destruct (o_diff o); [|reflexivity]. now destruct (N (proj1 A eq_refl)).
Qed.

(** C103 *)
Theorem diff_written argv l fs original modified out b1 b2 : a_linesep linesep -> real_files fs ->
  spelled digit diff_command argv l -> operands_of l = [original; modified] -> compatible (flags_of l) ->
  last_output l = Some out -> out <> [] -> without l FStrikeout -> plain_name original -> plain_name modified ->
  dget fs original = Some b1 -> dget fs modified = Some b2 ->
  exists fs' b k t1 t2 D, diff_program argv fs = (fs', Ran [] None) /\ same_but out fs fs' /\ dget fs' out = Some b /\
    unit_asked l k /\ units k (CStr (read_text b1)) t1 /\ units k (CStr (read_text b2)) t2 /\ lcs_diff t1 t2 D /\
    written_as l (lined space) (basename modified) (basename original) (joined D) (read_text b).
Proof.
  intros SEP RF SP O C L NE NS P1 P2 G1 G2. destruct (asked l C) as (o & A & K).
  pose proof (proj1 (output_asked l o A) out L) as Ou. pose proof (not_struck l o A NS) as St.
  destruct (diff_runs linesep re_w space digit sp emoji normalize DO argv l fs original modified o SP O C A) as [Run _].
  destruct (diff_files_written linesep SEP re_w space fs o original modified b1 b2 out RF P1 P2 St G1 G2) as (fs' & b & chunks & F & Q & SB & GB & R).
  rewrite (with_output_same o Ou) in Q.
  pose proof (reads_real fs original b1 RF G1) as R1. pose proof (reads_real fs modified b2 RF G2) as R2.
  destruct (diff_cli_parts re_w space o _ _ St R1 R2) as (t1 & t2 & D & U1 & U2 & HD & E). rewrite E in Q.
  destruct (lined_diff re_w space (tokenizer_of o) _ _ t1 t2 D (known o) R1 R2 U1 U2 HD) as (_ & _ & _ & d & Ed & Ld).
  destruct (display_file space l o (lined space) (joined D) (escape_of o (basename modified)) (escape_of o (basename original)) None d A Ou Ed Ld) as (x & text & X & Cx & W).
  rewrite X in Q. injection Q as ->. cbn [header_text app] in Cx. exists fs', b, (tokenizer_of o), t1, t2, D.
  rewrite (Run out L NE), F, R, Cx. unfold escape_of in W. rewrite Ou in W. repeat (split; [auto; now apply diff_greedy|]). exact W.
Qed.
Theorem diff_shown argv l fs original modified b1 b2 : real_files fs ->
  spelled digit diff_command argv l -> operands_of l = [original; modified] -> compatible (flags_of l) ->
  last_output l = None -> without l FStrikeout ->
  dget fs original = Some b1 -> dget fs modified = Some b2 ->
  harmless (read_text b1) -> harmless (read_text b2) ->
  (In (Flag FGit) l -> simple_name (basename original) /\ simple_name (basename modified)) ->
  exists cells k t1 t2 D, diff_program argv fs = (fs, Ran cells None) /\
    unit_asked l k /\ units k (CStr (read_text b1)) t1 /\ units k (CStr (read_text b2)) t2 /\ lcs_diff t1 t2 D /\
    shown_as normalize l (lined space) (basename modified) (basename original) (joined D) cells.
Proof.
  intros RF SP O C L NS G1 G2 H1 H2 SN. destruct (asked l C) as (o & A & K).
  pose proof (proj2 (output_asked l o A) L) as Ou. pose proof (not_struck l o A NS) as St.
  destruct (diff_runs linesep re_w space digit sp emoji normalize DO argv l fs original modified o SP O C A) as [_ Run].
  assert (T : get_text fs [original; modified] = Ok [read_text b1; read_text b2]) by (cbn [get_text]; rewrite G1, G2; reflexivity).
  pose proof (reads_real fs original b1 RF G1) as R1. pose proof (reads_real fs modified b2 RF G2) as R2.
  destruct (diff_cli_parts re_w space o _ _ St R1 R2) as (t1 & t2 & D & U1 & U2 & HD & E).
  destruct (lined_diff re_w space (tokenizer_of o) _ _ t1 t2 D (known o) R1 R2 U1 U2 HD) as (NT & B & A' & d & Ed & Ld).
  rewrite (Run _ _ L T), E. unfold escape_of. rewrite Ou.
  assert (X : exists x cells, display space o (style o) (joined D) (rich_escape (basename modified)) (rich_escape (basename original)) None = (x, None) /\
    on_console sp emoji normalize (x, None) = (cells, None) /\ shown_as normalize l (lined space) (basename modified) (basename original) (joined D) cells).
  { destruct (o_git o) eqn:Gi.
    - assert (IG : In (Flag FGit) l) by (apply A; exact Gi). destruct (SN IG) as [S1 S2]. rewrite !simple_escape by assumption.
      apply (display_screen space sp emoji normalize l o (lined space) (joined D) (basename modified) (basename original) None d); auto; try (rewrite ?A', ?B; assumption).
    - assert (NG : ~ In (Flag FGit) l) by (intros IG; apply A in IG; congruence).
      destruct (display_screen space sp emoji normalize l o (lined space) (joined D) (rich_escape (basename modified)) (rich_escape (basename original)) None d)
        as (x & cells & X1 & X2 & X3); auto; try (rewrite ?A', ?B; assumption); [intros IG; now destruct (NG IG)|].
      exists x, cells. split; [exact X1|]. split; [exact X2|]. destruct X3 as (X3 & X4 & _). split; [exact X3|]. split; [exact X4|]. intros IG; now destruct (NG IG). }
  destruct X as (x & cells & -> & -> & W). exists cells, (tokenizer_of o), t1, t2, D. repeat (split; [auto; now apply diff_greedy|]). exact W.
Qed.

(** C104 *)
Theorem merge_written argv l fs parent from into out b1 b2 b3 : a_linesep linesep -> real_files fs ->
  spelled digit merge_command argv l -> operands_of l = [parent; from; into] -> compatible (flags_of l) ->
  last_output l = Some out -> out <> [] -> without l FStrikeout -> plain_name parent -> plain_name from -> plain_name into ->
  dget fs parent = Some b1 -> dget fs from = Some b2 -> dget fs into = Some b3 ->
  exists fs' b k tp ti tf Di Df M, merge_program argv fs = (fs', Ran [] None) /\ same_but out fs fs' /\ dget fs' out = Some b /\
    unit_asked l k /\ units k (CStr (read_text b1)) tp /\ units k (CStr (read_text b3)) ti /\ units k (CStr (read_text b2)) tf /\
    lcs_diff tp ti Di /\ lcs_diff tp tf Df /\ merge_token_sequence KTuple tp ti tf = Ok M /\
    (without l FDiff -> written_as l (merge_lined space l) (basename into) (basename from) (joined M) (read_text b)) /\
    (In (Flag FDiff) l -> exists x1 x2 x3 y1 y2 y3, read_text b = y1 ++ y2 ++ y3 /\
      written_as l (lined space) (basename into) (basename parent) (joined Di) x1 /\ headed l (basename into) x1 y1 /\
      written_as l (lined space) (basename from) (basename parent) (joined Df) x2 /\ headed l (basename from) x2 y2 /\
      written_as l (merge_lined space l) (basename into) (basename from) (joined M) x3 /\ headed l (str "Merged") x3 y3).
Proof.
  intros SEP RF SP O C L NE NS P1 P2 P3 G1 G2 G3. destruct (asked l C) as (o & A & K).
  pose proof (proj1 (output_asked l o A) out L) as Ou. pose proof (not_struck l o A NS) as St.
  destruct (merge_runs linesep re_w space digit sp emoji normalize DO argv l fs parent from into o SP O C A) as [Run _].
  destruct (merge_files_written linesep SEP re_w space fs o parent into from b1 b3 b2 out RF P1 P3 P2 St G1 G3 G2) as (fs' & b & chunks & F & Q & SB & GB & R).
  rewrite (with_output_same o Ou) in Q.
  pose proof (reads_real fs parent b1 RF G1) as R1. pose proof (reads_real fs from b2 RF G2) as R2. pose proof (reads_real fs into b3 RF G3) as R3.
  destruct (merge_cli_parts re_w space o _ _ _ St R1 R3 R2) as (tp & ti & tf & Di & Df & M & Up & Ui & Uf & HDi & HDf & HM & E).
  destruct (E (basename parent) (basename into) (basename from)) as [E0 E1]. clear E.
  destruct (lined_diff re_w space (tokenizer_of o) _ _ tp ti Di (known o) R1 R3 Up Ui HDi) as (_ & _ & _ & di & Edi & Ldi).
  destruct (lined_diff re_w space (tokenizer_of o) _ _ tp tf Df (known o) R1 R2 Up Uf HDf) as (_ & _ & _ & df & Edf & Ldf).
  destruct (lined_merge space l M (merge_normal KTuple tp ti tf M HM) (merged_units re_w l o tp ti tf M _ _ A Ui Uf HM)) as (dm & Edm & Ldm).
  exists fs', b, (tokenizer_of o), tp, ti, tf, Di, Df, M. rewrite (Run out L NE), F, R.
  repeat (split; [auto; now apply diff_greedy|]). destruct (diffs_asked l o A) as [N Y]. split.
  - intros W. rewrite (E0 (N W)) in Q.
    destruct (display_file space l o (merge_lined space l) (joined M) (basename into) (basename from) None dm A Ou Edm Ldm) as (x & text & X & Cx & Wr).
    rewrite X in Q. injection Q as ->. cbn [header_text app] in Cx. now rewrite Cx.
  - intros W.
    destruct (display_file space l o (lined space) (joined Di) (basename into) (basename parent) (Some (basename into)) di A Ou Edi Ldi) as (z1 & x1 & Z1 & C1 & W1).
    destruct (display_file space l o (lined space) (joined Df) (basename from) (basename parent) (Some (basename from)) df A Ou Edf Ldf) as (z2 & x2 & Z2 & C2 & W2).
    destruct (display_file space l o (merge_lined space l) (joined M) (basename into) (basename from) (Some (str "Merged")) dm A Ou Edm Ldm) as (z3 & x3 & Z3 & C3 & W3).
    rewrite (E1 (Y W) z1 z2 z3 Z1 Z2 Z3) in Q. injection Q as <-. exists x1, x2, x3. rewrite !concat_app, C1, C2, C3.
    do 3 eexists. split; [reflexivity|]. repeat (split; [assumption || now apply headed_text|]). now apply headed_text.
Qed.
Theorem merge_shown argv l fs parent from into b1 b2 b3 : real_files fs ->
  spelled digit merge_command argv l -> operands_of l = [parent; from; into] -> compatible (flags_of l) ->
  last_output l = None -> without l FStrikeout ->
  dget fs parent = Some b1 -> dget fs from = Some b2 -> dget fs into = Some b3 ->
  (In (Flag FGit) l \/ In (Flag FDiff) l -> simple_name (basename parent) /\ simple_name (basename from) /\ simple_name (basename into)) ->
  (In (Flag FDiff) l -> harmless (read_text b1) /\ harmless (read_text b2) /\ harmless (read_text b3)) ->
  exists k tp ti tf Di Df M,
    unit_asked l k /\ units k (CStr (read_text b1)) tp /\ units k (CStr (read_text b3)) ti /\ units k (CStr (read_text b2)) tf /\
    lcs_diff tp ti Di /\ lcs_diff tp tf Df /\ merge_token_sequence KTuple tp ti tf = Ok M /\
    (harmless (concat (diff_after M)) -> harmless (concat (diff_before M)) ->
     exists cells, merge_program argv fs = (fs, Ran cells None) /\
    (without l FDiff -> shown_as normalize l (merge_lined space l) (basename into) (basename from) (joined M) cells) /\
    (In (Flag FDiff) l -> exists x1 x2 x3 y1 y2 y3, cells = y1 ++ y2 ++ y3 /\
      shown_as normalize l (lined space) (basename into) (basename parent) (joined Di) x1 /\ headed_cells normalize l (basename into) x1 y1 /\
      shown_as normalize l (lined space) (basename from) (basename parent) (joined Df) x2 /\ headed_cells normalize l (basename from) x2 y2 /\
      shown_as normalize l (merge_lined space l) (basename into) (basename from) (joined M) x3 /\ headed_cells normalize l (str "Merged") x3 y3)).
Proof.
  intros RF SP O C L NS G1 G2 G3 SN HH. destruct (asked l C) as (o & A & K).
  pose proof (proj2 (output_asked l o A) L) as Ou. pose proof (not_struck l o A NS) as St.
  destruct (merge_runs linesep re_w space digit sp emoji normalize DO argv l fs parent from into o SP O C A) as [_ Run].
  assert (T : get_text fs [parent; into; from] = Ok [read_text b1; read_text b3; read_text b2]) by (cbn [get_text]; rewrite G1, G2, G3; reflexivity).
  pose proof (reads_real fs parent b1 RF G1) as R1. pose proof (reads_real fs from b2 RF G2) as R2. pose proof (reads_real fs into b3 RF G3) as R3.
  destruct (merge_cli_parts re_w space o _ _ _ St R1 R3 R2) as (tp & ti & tf & Di & Df & M & Up & Ui & Uf & HDi & HDf & HM & E).
  destruct (E (basename parent) (basename into) (basename from)) as [E0 E1]. clear E.
  destruct (lined_diff re_w space (tokenizer_of o) _ _ tp ti Di (known o) R1 R3 Up Ui HDi) as (NTi & Bi & Ai & di & Edi & Ldi).
  destruct (lined_diff re_w space (tokenizer_of o) _ _ tp tf Df (known o) R1 R2 Up Uf HDf) as (NTf & Bf & Af & df & Edf & Ldf).
  pose proof (merge_normal KTuple tp ti tf M HM) as NM.
  destruct (lined_merge space l M NM (merged_units re_w l o tp ti tf M _ _ A Ui Uf HM)) as (dm & Edm & Ldm).
  exists (tokenizer_of o), tp, ti, tf, Di, Df, M. repeat (split; [auto; now apply diff_greedy|]). intros Ha Hb. rewrite (Run _ _ _ L T).
  rewrite <- joined_after in Ha. rewrite <- joined_before in Hb. pose proof (joined_apart M NM) as NTm.
  destruct (diffs_asked l o A) as [N Y]. destruct (o_diff o) eqn:OD.
  - assert (ID : In (Flag FDiff) l) by (apply A; exact OD). destruct (SN (or_intror ID)) as (S1 & S2 & S3). destruct (HH ID) as (H1 & H2 & H3).
    assert (SM : simple_name (str "Merged")).
    { unfold simple_name, no_control; split; [|split; [|split]]; [cbn; lia|cbn; lia|cbn; lia|repeat (apply Forall_cons; [cbn; lia|]); apply Forall_nil]. }
    destruct (display_screen space sp emoji normalize l o (lined space) (joined Di) (basename into) (basename parent) (Some (basename into)) di)
      as (z1 & x1 & Z1 & C1 & W1); auto; try (rewrite ?Ai, ?Bi; assumption).
    destruct (display_screen space sp emoji normalize l o (lined space) (joined Df) (basename from) (basename parent) (Some (basename from)) df)
      as (z2 & x2 & Z2 & C2 & W2); auto; try (rewrite ?Af, ?Bf; assumption).
    destruct (display_screen space sp emoji normalize l o (merge_lined space l) (joined M) (basename into) (basename from) (Some (str "Merged")) dm)
      as (z3 & x3 & Z3 & C3 & W3); auto.
    rewrite (E1 eq_refl z1 z2 z3 Z1 Z2 Z3).
    rewrite (console_app sp emoji normalize _ _ _ _ C1 (console_app sp emoji normalize _ _ _ _ C2 C3)).
    eexists. split; [reflexivity|]. split; [intros W; now destruct (W ID)|]. intros _. exists x1, x2, x3. do 3 eexists. split; [reflexivity|].
    repeat (split; [assumption || now apply headed_cells_of|]). now apply headed_cells_of.
  - destruct (display_screen space sp emoji normalize l o (merge_lined space l) (joined M) (basename into) (basename from) None dm)
      as (z & x & Z & Cz & W); auto; [intros IG; destruct (SN (or_introl IG)); tauto|].
    rewrite (E0 eq_refl), Z, Cz. exists x. split; [reflexivity|]. split; [intros _; exact W|]. intros ID. now specialize (Y ID).
Qed.
End Programs.

(** C105 *)
Theorem conflicts_differ re_w p c t tp tc tt M : units re_w KChar (CStr p) tp -> units re_w KChar (CStr c) tc -> units re_w KChar (CStr t) tt ->
  merge_token_sequence KTuple tp tc tt = Ok M ->
  forall a b, In (DChange a b) (joined M) -> a <> b /\ forall x, In x a -> In x b -> False.
Proof.
  intros [_ Up] [_ Uc] [_ Ut] HM a b H. unfold joined in H. apply in_map_iff in H as ([u|u v] & E & I); [discriminate|]. injection E as <- <-.
  destruct (merge_normal KTuple tp tc tt M HM) as [->|[_ [_ F]]]; [now destruct I as [I|[]]|].
  rewrite Forall_forall in F. destruct (F _ I) as [N D].
  assert (One : forall x, In x u \/ In x v -> length x = 1%nat).
  { intros x Hx. cbn in Uc, Ut. rewrite Forall_forall in Uc, Ut.
    destruct (merge_tokens KTuple tp tc tt M HM x) as [K|K]; auto. unfold tokens. apply in_flat_map. eexists. split; [exact I|]. apply in_app_iff. tauto. }
  assert (X : forall x, In x (concat u) -> In x (concat v) -> False).
  { intros x Hu Hv. apply in_concat in Hu as (y & Iy & Xy). apply in_concat in Hv as (z & Iz & Xz).
    assert (y = [x]) as -> by (specialize (One y (or_introl Iy)); destruct y as [|? [|]]; try discriminate; destruct Xy as [->|[]]; reflexivity).
    assert (z = [x]) as -> by (specialize (One z (or_intror Iz)); destruct z as [|? [|]]; try discriminate; destruct Xz as [->|[]]; reflexivity).
    exact (D _ Iy Iz). }
  split; [|exact X]. intros E.
  assert (Z0 : forall w : list (list Z), (forall x, In x w -> length x = 1%nat) -> concat w = [] -> w = []).
  { intros [|x w] O C; [reflexivity|]. apply app_eq_nil in C as [-> _]. specialize (O [] (or_introl eq_refl)). discriminate. }
  destruct (concat u) as [|x r] eqn:Eu.
  - apply N. split; apply Z0; auto.
  - apply (X x); [now left|]. rewrite <- E. now left.
Qed.
