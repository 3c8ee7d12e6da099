(** Rendering: the git-style output and when rendering raises (C56, C57). *)
From Coq Require Import String Lia.
From Verif Require Import Base Changesets SpecDiff Tokenizers Lines SpecLines LinesProofs LinesMore Markup SpecMarkup.
Local Open Scope Z_scope.
Local Open Scope list_scope.

(** * Lines of a text *)
Lemma lines_concat s : concat (text_lines s) = s.
Proof.
  induction s as [|c s IH]; cbn; [reflexivity|]. destruct (c =? 10) eqn:E; cbn.
  - apply Z.eqb_eq in E. now rewrite IH, E.
  - destruct (text_lines s) as [|l ls]; cbn in *; now rewrite <- IH.
Qed.
Lemma lines_app a b : whole_lines a -> text_lines (a ++ b) = text_lines a ++ text_lines b.
Proof.
  intros [->|[a' ->]]; [reflexivity|]. rewrite <- app_assoc. cbn [app].
  induction a' as [|c a' IH]; cbn; [reflexivity|]. rewrite IH.
  destruct (c =? 10); [reflexivity|]. now destruct (text_lines (a' ++ [10])) as [|l ls] eqn:E;
    [apply (f_equal (@concat Z)) in E; rewrite lines_concat in E; destruct a'|].
Qed.
Lemma lines_line s : ~ In 10 s -> text_lines (s ++ [10]) = [s ++ [10]].
Proof.
  induction s as [|c s IH]; intros N; cbn; [reflexivity|].
  destruct (c =? 10) eqn:E; [apply Z.eqb_eq in E; destruct N; now left|]. rewrite IH; [reflexivity|firstorder].
Qed.

(** * Stripping *)
Definition kept (first : bool) (p : place) : bool :=
  match p with Common => true | First => first | Second => negb first end.
Lemma strip_plain first p ls rest : Forall (fun l => marker l = false) ls ->
  strip first p (ls ++ rest) =
  option_map (fun r => (if kept first p then concat ls else []) ++ r) (strip first p rest).
Proof.
  induction 1 as [|l ls H F IH]; cbn [app strip].
  - cbn. destruct (strip first p rest) as [r|]; cbn; [|reflexivity]. now destruct (kept first p).
  - rewrite H, IH. cbn zeta. destruct (strip first p rest) as [r|]; cbn; [|reflexivity].
    fold (kept first p). destruct (kept first p); cbn; now rewrite ?app_assoc.
Qed.
Lemma marker_lines n : ~ In 10 n ->
  text_lines (str "<<<<<<< " ++ n ++ [10]) = [str "<<<<<<< " ++ n ++ [10]] /\
  text_lines (str ">>>>>>> " ++ n ++ [10]) = [str ">>>>>>> " ++ n ++ [10]].
Proof.
  intros N. rewrite !app_assoc. split; apply lines_line; cbn; intuition discriminate.
Qed.
Lemma markers_app a b : whole_lines a -> no_markers (a ++ b) -> no_markers a /\ no_markers b.
Proof. intros W N. unfold no_markers in *. rewrite lines_app in N by exact W. now apply Forall_app in N. Qed.
Lemma git_strip first n0 n1 d : ~ In 10 n0 -> ~ In 10 n1 -> Forall whole_item d ->
  no_markers (into_text d) -> no_markers (from_text d) ->
  strip_conflicts first (git_text n0 n1 d) = Some (if first then into_text d else from_text d).
Proof.
  intros N0 N1. unfold strip_conflicts. induction 1 as [|i d W F IH]; intros MI MF; [now destruct first|].
  destruct i as [s|a b]; cbn [git_text flat_map]; fold (git_text n0 n1 d).
  - cbn in W, MI, MF. fold (into_text d) in MI. fold (from_text d) in MF.
    apply markers_app in MI as [Ms MI]; [|exact W]. apply markers_app in MF as [_ MF]; [|exact W].
    rewrite lines_app by exact W. rewrite strip_plain by exact Ms. rewrite IH by assumption.
    cbn. rewrite lines_concat. now destruct first.
  - cbn in W, MI, MF. fold (into_text d) in MI. fold (from_text d) in MF. destruct W as [Wa Wb].
    apply markers_app in MI as [Ma MI]; [|exact Wa]. apply markers_app in MF as [Mb MF]; [|exact Wb].
    destruct (marker_lines n0 N0) as [L0 _]. destruct (marker_lines n1 N1) as [_ L1].
    set (m0 := str "<<<<<<< " ++ n0 ++ [10]) in *. set (m2 := str ">>>>>>> " ++ n1 ++ [10]) in *.
    set (m1 := str "=======" ++ [10]).
    assert (E : (m0 ++ side_text a ++ str "=======" ++ [10] ++ side_text b ++ m2) ++ git_text n0 n1 d
                = m0 ++ side_text a ++ m1 ++ side_text b ++ m2 ++ git_text n0 n1 d)
      by (unfold m1; now rewrite <- !app_assoc).
    rewrite E; clear E.
    assert (W0 : whole_lines m0) by (right; exists (str "<<<<<<< " ++ n0); unfold m0; now rewrite app_assoc).
    assert (W1 : whole_lines m1) by (right; now exists (str "=======")).
    assert (W2 : whole_lines m2) by (right; exists (str ">>>>>>> " ++ n1); unfold m2; now rewrite app_assoc).
    assert (L : text_lines m1 = [m1]) by reflexivity.
    rewrite (lines_app m0), (lines_app (side_text a)), (lines_app m1), (lines_app (side_text b)), (lines_app m2) by assumption.
    rewrite L0, L, L1.
    assert (X0 : marker m0 = true /\ opening m0 = true) by (split; reflexivity).
    assert (X1 : marker m1 = true /\ middle m1 = true) by (split; reflexivity).
    assert (X2 : marker m2 = true /\ closing m2 = true) by (split; reflexivity).
    destruct X0 as [X0 X0'], X1 as [X1 X1'], X2 as [X2 X2'].
    clearbody m0 m1 m2. cbn [app strip]. rewrite X0, X0', strip_plain by exact Ma.
    cbn [app strip]. rewrite X1, X1', strip_plain by exact Mb. cbn [app strip]. rewrite X2, X2'.
    rewrite IH by assumption. cbn. rewrite !lines_concat. now destruct first.
Qed.

(** * What the renderer prints *)
Lemma inner_plain l : inner_stream (fun s => s) l PLAIN_LEVEL1 = Ok (side_text l).
Proof.
  induction l as [|[s|a b] l IH]; cbn [inner_stream]; [reflexivity| |]; rewrite IH; cbn [bind]; [reflexivity|].
  destruct a, b; cbn; rewrite ?app_nil_r, <- ?app_assoc; reflexivity.
Qed.
Lemma git_any (n0 n1 : bname) d : sides_present d ->
  exists out, markup_stream (fun s => s) (line_stream d) GIT_MARKUP_LEVEL0 (Some PLAIN_LEVEL1) n0 n1
              = (out, None) /\ concat out = git_text (match n0 with Some s => s | None => str "None" end)
                                             (match n1 with Some s => s | None => str "None" end) d.
Proof.
  set (m0 := match n0 with Some s => s | None => str "None" end). set (m1 := match n1 with Some s => s | None => str "None" end).
  induction 1 as [|i d H F [out [IH C]]]; [exists []; now split|].
  destruct i as [s|a b]; cbn [line_stream map]; fold (line_stream d); cbn [markup_stream]; rewrite IH.
  - exists (s :: out). split; [reflexivity|]. cbn. now rewrite C.
  - destruct H as [Ha Hb]. destruct a as [|x a]; [now destruct Ha|]. destruct b as [|y b]; [now destruct Hb|].
    cbn [side_true nonempty change_item GIT_MARKUP_LEVEL0 m_from m_into subscript bind].
    rewrite !inner_plain. cbn [bind then_print fst snd]. eexists; split; [reflexivity|].
    cbn [concat m_separator GIT_MARKUP_LEVEL0 git_text flat_map]. rewrite C. fold (git_text m0 m1 d).
    change (show_name n0) with m0. change (show_name n1) with m1. clearbody m0 m1.
    cbn. rewrite ?app_nil_r, <- ?app_assoc. cbn. repeat (f_equal; rewrite <- ?app_assoc; cbn).
Qed.
Lemma git_printed n0 n1 d : sides_present d ->
  exists out, markup_stream (fun s => s) (line_stream d) GIT_MARKUP_LEVEL0 (Some PLAIN_LEVEL1) (Some n0) (Some n1)
              = (out, None) /\ concat out = git_text n0 n1 d.
Proof. exact (git_any (Some n0) (Some n1) d). Qed.
(** with a header, as markup_changes prints *)
Lemma git_changes n0 n1 header d : sides_present d ->
  exists out, markup_changes (fun s => s) (line_stream d) GIT_MARKUP_LEVEL0 (Some PLAIN_LEVEL1) n0 n1 header = (out, None) /\
    concat out = (match header with Some (c :: h) => [10] ++ c :: h | _ => [] end) ++
      git_text (match n0 with Some s => s | None => str "None" end) (match n1 with Some s => s | None => str "None" end) d.
Proof.
  intros S. destruct (git_any n0 n1 d S) as [out [H C]]. unfold markup_changes. rewrite H.
  destruct header as [[|c h]|]; [exists out; auto| |exists out; auto].
  eexists; split; [reflexivity|]. cbn [fst snd concat then_print show_header m_header GIT_MARKUP_LEVEL0]. rewrite C.
  unfold show_header; cbn. now rewrite app_nil_r.
Qed.
