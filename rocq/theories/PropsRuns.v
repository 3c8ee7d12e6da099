(** C136: gaspra-merge run once for each of several copies of a file.  [edited] and [edit_of]
    are in SpecOrder, [merges_into], [run_each] and [text_of] in SpecRuns, [apart_edits] in
    SpecEdits.  Command lines with the argument "--" are not modelled. *)
From Coq Require Import Lia ZArith String.
From Verif Require Import Base Changesets SpecDiff Merge SpecMerge Tokenizers SpecTokenizers Markup SpecMarkup SpecTokens SpecEdits
  Lines SpecLines SpecMarks Rich SpecConsole Files SpecFiles FilesProofs CommandLine SpecCommandLine SpecPrograms SpecOrder SpecRuns RunsProofs PropsPrograms PropsOrderTexts.
Local Open Scope list_scope.

(** Several people have edited copies of one file, each in other places.  One of the copies
    is called [out], and "gaspra-merge -o out parent copy out" is run for each of the others.
    Then in the end [out] is the parent with all of the edits, whatever the order of the
    runs, also if copies are merged more than once; no run prints or raises anything, and no
    other file is changed. *)
Theorem C136_any_order : forall linesep re_w space digit sp emoji normalize, digit_ok digit -> a_linesep linesep ->
  forall o p bs, real_text p -> bs <> [] ->
  (forall b, In b bs -> exists s, edited re_w o p b s) ->
  (forall e e', edit_of re_w o p bs e -> edit_of re_w o p bs e' -> apart_edits e e') ->
  exists m s, edited re_w o p m s /\ (forall e, In e (edits 0 s) <-> edit_of re_w o p bs e) /\
  forall fs parent out b1 b0 commands, real_files fs -> plain_name parent -> plain_name out -> out <> [] -> parent <> out ->
    dget fs parent = Some b1 -> read_text b1 = p -> dget fs out = Some b0 ->
    (forall argv from, In (argv, from) commands -> merges_into digit o parent out from argv /\ plain_name from /\ from <> out /\ dmem fs from = true) ->
    (forall t, In t (read_text b0 :: map (fun c => text_of fs (snd c)) commands) <-> In t bs) ->
    exists fs' b, run_each (gaspra_merge linesep re_w space digit sp emoji normalize) fs (map fst commands) = Some fs' /\
      real_files fs' /\ same_but out fs fs' /\ dget fs' out = Some b /\ read_text b = m.
Proof. exact runs_any_order. Qed.
(** "gaspra-diff -o review parent out" then shows just the edits of all the copies, in the
    form that is asked for. *)
Theorem C136_shown : forall linesep re_w space digit sp emoji normalize, digit_ok digit -> a_linesep linesep ->
  forall o p bs, real_text p -> bs <> [] ->
  (forall b, In b bs -> exists s, edited re_w o p b s) ->
  (forall e e', edit_of re_w o p bs e -> edit_of re_w o p bs e' -> apart_edits e e') ->
  exists s, (forall e, In e (edits 0 s) <-> edit_of re_w o p bs e) /\
  forall fs parent out b1 b0 commands, real_files fs -> plain_name parent -> plain_name out -> out <> [] -> parent <> out ->
    dget fs parent = Some b1 -> read_text b1 = p -> dget fs out = Some b0 ->
    (forall argv from, In (argv, from) commands -> merges_into digit o parent out from argv /\ plain_name from /\ from <> out /\ dmem fs from = true) ->
    (forall t, In t (read_text b0 :: map (fun c => text_of fs (snd c)) commands) <-> In t bs) ->
    forall argv l review, spelled digit diff_command argv l -> operands_of l = [parent; out] -> SpecCommandLine.compatible (flags_of l) ->
    last_output l = Some review -> review <> [] -> without l FStrikeout -> unit_asked l (tokenizer_of o) ->
    exists fs1 fs2 b, run_each (gaspra_merge linesep re_w space digit sp emoji normalize) fs (map fst commands) = Some fs1 /\
      gaspra_diff linesep re_w space digit sp emoji normalize argv fs1 = (fs2, Ran [] None) /\
      same_but review fs1 fs2 /\ dget fs2 review = Some b /\
      written_as l (lined space) (basename out) (basename parent) (joined s) (read_text b).
Proof. exact runs_shown. Qed.
(** Whenever a merge has no conflict: the run of the program, here with the file that is
    merged into as the output, writes just the merged text. *)
Theorem C136_one_run : forall linesep re_w space digit sp emoji normalize, digit_ok digit -> a_linesep linesep ->
  forall o fs parent out from argv b1 b2 b3 m, real_files fs -> merges_into digit o parent out from argv ->
  plain_name parent -> plain_name from -> plain_name out -> out <> [] ->
  dget fs parent = Some b1 -> dget fs from = Some b2 -> dget fs out = Some b3 ->
  merge_result re_w o (read_text b1) (read_text b3) (read_text b2) = Ok [TText (CStr m)] ->
  exists fs' b, gaspra_merge linesep re_w space digit sp emoji normalize argv fs = (fs', Ran [] None) /\
    real_files fs' /\ same_but out fs fs' /\ dget fs' out = Some b /\ read_text b = m.
Proof. exact one_run. Qed.
Print Assumptions C136_any_order.
Print Assumptions C136_shown.
Print Assumptions C136_one_run.

(** The three copies of C83_texts_example as files *)
Definition runs_files : files :=
  [(str "old", old_file); (str "out", file (diff_after lines0)); (str "ann", file (diff_after lines1)); (str "bob", file (diff_after lines2))].
Definition run_line (from : string) : list (list Z) := [str "-lo"; str "out"; str "old"; str from; str "out"].
Definition run_items (from : string) : list item :=
  [Flag FLines; Output (str "out"); Operand (str "old"); Operand (str from); Operand (str "out")].
Definition commands_example : list (list (list Z) * list Z) :=
  [(run_line "bob", str "bob"); (run_line "ann", str "ann"); (run_line "bob", str "bob")].
Example C136_spelled : merges_into decimal by_lines (str "old") (str "out") (str "ann") (run_line "ann") /\
  merges_into decimal by_lines (str "old") (str "out") (str "bob") (run_line "bob").
Proof.
  assert (G : forall from, str from = str "ann" \/ str from = str "bob" ->
    merges_into decimal by_lines (str "old") (str "out") (str from) (run_line from)).
  { intros from Q. exists (run_items from). split; [|split; [reflexivity|]].
    - apply (spelled_opens decimal merge_command (str "-lo") (str "out") [str "old"; str from; str "out"] [Flag FLines]
        [Operand (str "old"); Operand (str from); Operand (str "out")]).
      + apply (opens_letters merge_command [FLines]). repeat constructor; discriminate.
      + apply plain_operand. discriminate.
      + destruct Q as [Q|Q]; rewrite Q; repeat (apply spelled_operand; [apply plain_operand; discriminate|]); constructor.
    - split; [intros f g; cbn; intuition congruence|]. split; [reflexivity|].
      do 4 (split; [intros X; cbn in X; intuition discriminate|]). constructor. now left. }
  split; apply G; auto.
Qed.
Example C136_texts : forall t, In t (text_of runs_files (str "out") :: map (fun c => text_of runs_files (snd c)) commands_example) <-> In t copies.
Proof.
  assert (Q : text_of runs_files (str "out") = file (diff_after lines0) /\ text_of runs_files (str "ann") = file (diff_after lines1) /\
    text_of runs_files (str "bob") = file (diff_after lines2)) by (repeat split; vm_compute; reflexivity).
  destruct Q as (Q0 & Q1 & Q2). intros t. cbn [map commands_example snd In copies]. rewrite Q0, Q1, Q2. cbn. tauto.
Qed.
Example C136_names : plain_name (str "old") /\ plain_name (str "out") /\ plain_name (str "ann") /\ real_files runs_files /\ read_text old_file = old_file.
Proof.
  assert (P : forall n, forallb (fun c => (32 <=? c) && (c <? 127))%Z n = true -> plain_name n).
  { intros n H. rewrite forallb_forall in H. split.
    - apply Forall_forall. intros c I. specialize (H c I). unfold scalar_value. lia.
    - intros I. now specialize (H _ I). }
  repeat (split; [apply P; reflexivity|]). split; [apply real_files_check; reflexivity|vm_compute; reflexivity].
Qed.
Example C136_example : exists fs',
  run_each (gaspra_merge [10%Z] (fun _ => false) blank decimal blank (fun _ => None) (fun s => s)) runs_files (map fst commands_example) = Some fs' /\
  dget fs' (str "out") = Some (file [ln "x"; ln "b"; ln "y"; ln "c"]).
Proof. eexists. split; vm_compute; reflexivity. Qed.
(** and what gaspra-diff -g then writes *)
Definition review_line : list (list Z) := [str "-lgo"; str "review"; str "old"; str "out"].
Definition review_items : list item := [Flag FLines; Flag FGit; Output (str "review"); Operand (str "old"); Operand (str "out")].
Example C136_review_spelled : spelled decimal diff_command review_line review_items /\ operands_of review_items = [str "old"; str "out"] /\
  last_output review_items = Some (str "review") /\ without review_items FStrikeout /\ unit_asked review_items KLine.
Proof.
  split; [|split; [reflexivity|split; [reflexivity|split; [intros X; cbn in X; intuition discriminate|constructor; now left]]]].
  apply (spelled_opens decimal diff_command (str "-lgo") (str "review") [str "old"; str "out"] [Flag FLines; Flag FGit]
    [Operand (str "old"); Operand (str "out")]).
  - apply (opens_letters diff_command [FLines; FGit]). repeat constructor; discriminate.
  - apply plain_operand. discriminate.
  - repeat (apply spelled_operand; [apply plain_operand; discriminate|]). constructor.
Qed.
Example C136_example_shown : exists fs1 fs2,
  run_each (gaspra_merge [10%Z] (fun _ => false) blank decimal blank (fun _ => None) (fun s => s)) runs_files (map fst commands_example) = Some fs1 /\
  gaspra_diff [10%Z] (fun _ => false) blank decimal blank (fun _ => None) (fun s => s) review_line fs1 = (fs2, Ran [] None) /\
  dget fs2 (str "review") = Some (file
    [ln "<<<<<<< out"; ln "x"; ln "======="; ln "a"; ln ">>>>>>> old"; ln "b";
     ln "<<<<<<< out"; ln "y"; ln "======="; ln ">>>>>>> old"; ln "c";
     ln "<<<<<<< out"; ln "======="; ln "d"; ln ">>>>>>> old"]).
Proof. eexists; eexists. split; [|split]; vm_compute; reflexivity. Qed.
