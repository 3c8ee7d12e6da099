(** gaspra-merge on files in which edits have been made (C129). *)
From Coq Require Import String Lia.
From Verif Require Import Base Changesets SpecDiff SpecGreedy DiffGreedy Merge SpecMerge SpecEdits EditsProofs EditsConflicts Tokenizers SpecTokenizers SpecTokens TokensProofs
  Lines SpecLines Markup SpecMarkup SpecMarks Rich SpecConsole ConsoleProofs Files SpecFiles FilesProofs CommandLine SpecCommandLine SpecPrograms ProgramsProofs.
Local Open Scope Z_scope.
Local Open Scope list_scope.

Lemma asked_once l k k' : SpecCommandLine.compatible (flags_of l) -> unit_asked l k -> unit_asked l k' -> k = k'.
Proof.
  intros C H H'.
  assert (X : In (Flag FWords) l -> In (Flag FLines) l -> False).
  { intros A B. assert (FWords = FLines); [|discriminate]. apply C; try (cbn; tauto); unfold flags_of; apply in_flat_map;
    [exists (Flag FWords)|exists (Flag FLines)]; (split; [assumption|now left]). }
  destruct H, H'; try reflexivity; try (exfalso; auto; fail); unfold without in *; tauto.
Qed.
Lemma no_changes (d : list oitem) : (forall a b, ~ In (OChange a b) d) -> into_text d = from_text d /\ line_text d = into_text d /\
  forall n0 n1, git_text n0 n1 d = into_text d.
Proof.
  induction d as [|[s|a b] d IH]; intros H; [repeat split| |now destruct (H a b (or_introl eq_refl))].
  destruct IH as (A & B & C); [intros a b I; apply (H a b); now right|].
  unfold into_text, from_text, line_text, git_text in *. cbn [flat_map]. rewrite A, B. repeat split; [now rewrite <- A|]. intros. now rewrite C, A.
Qed.

Section Edited.
Variable linesep : list Z.
Variables re_w space digit sp : Z -> bool.
Variable emoji : list Z -> option (list Z).
Variable normalize : list Z -> list Z.
Hypothesis DO : digit_ok digit.
Notation merge_program := (gaspra_merge linesep re_w space digit sp emoji normalize).
Notation units := (units re_w).

Theorem edits_shown argv l fs original modified out b1 b2 k s : a_linesep linesep -> real_files fs ->
  spelled digit diff_command argv l -> operands_of l = [original; modified] -> SpecCommandLine.compatible (flags_of l) ->
  last_output l = Some out -> out <> [] -> without l FStrikeout -> plain_name original -> plain_name modified ->
  dget fs original = Some b1 -> dget fs modified = Some b2 -> unit_asked l k ->
  units k (CStr (read_text b1)) (diff_before s) -> units k (CStr (read_text b2)) (diff_after s) -> distinct_edits s ->
  exists fs' b, gaspra_diff linesep re_w space digit sp emoji normalize argv fs = (fs', Ran [] None) /\
    same_but out fs fs' /\ dget fs' out = Some b /\
    written_as l (lined space) (basename modified) (basename original) (joined s) (read_text b).
Proof.
  intros SEP RF SP O C L NE NS P1 P2 G1 G2 A U1 U2 D0.
  destruct (diff_written linesep re_w space digit sp emoji normalize DO argv l fs original modified out b1 b2 SEP RF SP O C L NE NS P1 P2 G1 G2)
    as (fs' & b & k' & t1 & t2 & D & Run & SB & GB & A' & V1 & V2 & HD & W).
  pose proof (asked_once l k k' C A A') as ->.
  rewrite (units_unique re_w _ _ _ _ V1 U1), (units_unique re_w _ _ _ _ V2 U2) in HD.
  apply diff_greedy in HD. rewrite (diff_finds_edits s D0) in HD. injection HD as <-. eauto 6.
Qed.

Theorem edits_merged argv l fs parent from into out b1 b2 b3 k s0 s1 : a_linesep linesep -> real_files fs ->
  spelled digit merge_command argv l -> operands_of l = [parent; from; into] -> SpecCommandLine.compatible (flags_of l) ->
  last_output l = Some out -> out <> [] -> without l FStrikeout -> without l FDiff ->
  plain_name parent -> plain_name from -> plain_name into ->
  dget fs parent = Some b1 -> dget fs from = Some b2 -> dget fs into = Some b3 -> unit_asked l k ->
  units k (CStr (read_text b1)) (diff_before s0) -> units k (CStr (read_text b1)) (diff_before s1) ->
  units k (CStr (read_text b3)) (diff_after s0) -> units k (CStr (read_text b2)) (diff_after s1) ->
  distinct_edits s0 -> distinct_edits s1 -> SpecMerge.compatible (edits 0 s0) (edits 0 s1) ->
  let merged := concat (union_text (diff_before s0) (edits 0 s0) (edits 0 s1)) in
  exists fs' b, merge_program argv fs = (fs', Ran [] None) /\ same_but out fs fs' /\ dget fs' out = Some b /\
    (without l FShowLines -> without l FGit -> read_text b = merged) /\
    (In (Flag FShowLines) l \/ In (Flag FGit) l -> read_text b = merged ++ (if ends_line merged then [] else [10])).
Proof.
  intros SEP RF SP O C L NE NS ND P1 P2 P3 G1 G2 G3 A Up Up' Ui Uf D0 D1 Co merged.
  destruct (merge_written linesep re_w space digit sp emoji normalize DO argv l fs parent from into out b1 b2 b3 SEP RF SP O C L NE NS P1 P2 P3 G1 G2 G3)
    as (fs' & b & k' & tp & ti & tf & Di & Df & M & Run & SB & GB & A' & Up2 & Ui2 & Uf2 & _ & _ & HM & W & _).
  pose proof (asked_once l k k' C A A') as ->.
  rewrite (units_unique re_w _ _ _ _ Up2 Up), (units_unique re_w _ _ _ _ Ui2 Ui), (units_unique re_w _ _ _ _ Uf2 Uf) in HM.
  rewrite merge_of_edits in HM; [|exact D0|exact D1|exact (units_unique re_w _ _ _ _ Up Up')|exact Co]. injection HM as <-.
  exists fs', b. split; [exact Run|]. split; [exact SB|]. split; [exact GB|].
  destruct (W ND) as (W1 & W2 & W3). cbn [joined map] in *. fold merged in W1, W2, W3.
  assert (Line : forall d, merge_lined space l [DText merged] d ->
    (forall a b0, ~ In (OChange a b0) d) /\ into_text d = merged ++ (if ends_line merged then [] else [10])).
  { intros d [(_ & _ & I & tail & _ & T & Ti & _) _]. split.
    - intros a b0 H. destruct (proj1 I) as (x & y & [X|[]]); [eauto|discriminate].
    - rewrite Ti. unfold diff_after at 1. cbn [flat_map]. rewrite app_nil_r. f_equal. rewrite T.
      + unfold last_newline, diff_after, diff_before. cbn [flat_map]. rewrite !app_nil_r. now destruct (ends_line merged).
      + cbn [visible filter]. destruct merged; intros [|[|j]] x y H1 H2; discriminate. }
  split.
  - intros N1 N2. rewrite (W1 N1 N2). unfold flat_text. cbn [flat_map]. apply app_nil_r.
  - intros H. assert (Hd : In (Flag FGit) l \/ ~ In (Flag FGit) l).
    { clear. induction l as [|i l IH]; [now right|]. destruct IH as [IH|IH]; [left; now right|].
      destruct i as [f| |]; try (right; intros [X|X]; [discriminate|auto]; fail).
      destruct f; try (right; intros [X|X]; [discriminate|auto]; fail). left; now left. }
    destruct Hd as [Hg|Hg].
    + destruct (W3 Hg) as (d & Ld & ->). destruct (Line d Ld) as [N <-]. now apply no_changes.
    + destruct H as [H|H]; [|contradiction]. destruct (W2 H Hg) as (d & Ld & ->). destruct (Line d Ld) as [N <-]. now apply no_changes.
Qed.

Theorem edits_conflict argv l fs parent from into out b1 b2 b3 k s0 s1 : a_linesep linesep -> real_files fs ->
  spelled digit merge_command argv l -> operands_of l = [parent; from; into] -> SpecCommandLine.compatible (flags_of l) ->
  last_output l = Some out -> out <> [] -> without l FStrikeout -> without l FDiff -> In (Flag FGit) l ->
  plain_name parent -> plain_name from -> plain_name into ->
  dget fs parent = Some b1 -> dget fs from = Some b2 -> dget fs into = Some b3 -> unit_asked l k ->
  units k (CStr (read_text b1)) (diff_before s0) -> units k (CStr (read_text b1)) (diff_before s1) ->
  units k (CStr (read_text b3)) (diff_after s0) -> units k (CStr (read_text b2)) (diff_after s1) ->
  distinct_edits s0 -> distinct_edits s1 ->
  exists fs' b d, merge_program argv fs = (fs', Ran [] None) /\ same_but out fs fs' /\ dget fs' out = Some b /\
    read_text b = git_text (basename into) (basename from) d /\ Forall whole_item d /\
    ((exists x y, In (OChange x y) d) <-> ~ SpecMerge.compatible (edits 0 s0) (edits 0 s1)).
Proof.
  intros SEP RF SP O C L NE NS ND Hg P1 P2 P3 G1 G2 G3 A Up Up' Ui Uf D0 D1.
  destruct (merge_written linesep re_w space digit sp emoji normalize DO argv l fs parent from into out b1 b2 b3 SEP RF SP O C L NE NS P1 P2 P3 G1 G2 G3)
    as (fs' & b & k' & tp & ti & tf & Di & Df & M & Run & SB & GB & A' & Up2 & Ui2 & Uf2 & _ & _ & HM & W & _).
  pose proof (asked_once l k k' C A A') as ->.
  rewrite (units_unique re_w _ _ _ _ Up2 Up), (units_unique re_w _ _ _ _ Ui2 Ui), (units_unique re_w _ _ _ _ Uf2 Uf) in HM.
  pose proof (merge_conflict_iff KTuple s0 s1 M D0 D1 (units_unique re_w _ _ _ _ Up Up') HM) as Iff.
  destruct (W ND) as (_ & _ & W3). destruct (W3 Hg) as (d & [(Wh & _ & I & _) _] & Eb).
  exists fs', b, d. repeat (split; [assumption|]). rewrite I. split.
  - intros (x & y & H) Co. apply in_map_iff in H as ([u|u v] & E & Hi); [discriminate|]. exact (proj2 Iff Co u v Hi).
  - intros Nc. assert (Hd : no_conflict M \/ exists x y, In (DChange x y) M).
    { clear. induction M as [|[u|u v] M IH]; [left; intros a b []| |right; exists u, v; now left].
      destruct IH as [IH|(x & y & IH)]; [left; intros a b [H|H]; [discriminate|exact (IH a b H)]|right; exists x, y; now right]. }
    destruct Hd as [Hn|(x & y & H)]; [destruct (Nc (proj1 Iff Hn))|]. exists (concat x), (concat y).
    apply in_map_iff. exists (DChange x y). auto.
Qed.
End Edited.
