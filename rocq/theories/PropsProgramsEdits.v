(** C129: gaspra-diff and gaspra-merge on files in which somebody has made edits.  [linesep] is
    os.linesep, [re_w] what \w matches, [space] what str.isspace accepts, [digit] what \d
    matches; [sp], [emoji] and [normalize] belong to the console.  Command lines with the
    argument "--" are not modelled. *)
From Coq Require Import String Lia.
From Verif Require Import Base Changesets SpecDiff Merge SpecMerge SpecEdits Tokenizers SpecTokenizers SpecTokens Lines SpecLines Markup SpecMarkup
  Rich SpecConsole ConsoleProofs SpecMarks Files SpecFiles FilesProofs CommandLine SpecCommandLine SpecPrograms ProgramsEdits PropsEdits PropsPrograms.
Local Open Scope Z_scope.
Local Open Scope list_scope.

(** A script [s] says which units of the file have been replaced and by what.  Every unit that is
    kept is the only one of its kind, what is inserted is new and what is removed is gone
    ([distinct_edits]).  gaspra-diff then writes the script itself, as asked for. *)
Theorem C129_shown : forall linesep re_w space digit sp emoji normalize, digit_ok digit ->
  forall argv l fs original modified out b1 b2 k s, a_linesep linesep -> real_files fs ->
  spelled digit diff_command argv l -> operands_of l = [original; modified] -> SpecCommandLine.compatible (flags_of l) ->
  last_output l = Some out -> out <> [] -> without l FStrikeout -> plain_name original -> plain_name modified ->
  dget fs original = Some b1 -> dget fs modified = Some b2 -> unit_asked l k ->
  units re_w k (CStr (read_text b1)) (diff_before s) -> units re_w k (CStr (read_text b2)) (diff_after s) -> distinct_edits s ->
  exists fs' b, gaspra_diff linesep re_w space digit sp emoji normalize argv fs = (fs', Ran [] None) /\
    same_but out fs fs' /\ dget fs' out = Some b /\
    written_as l (lined space) (basename modified) (basename original) (joined s) (read_text b).
Proof. exact edits_shown. Qed.
(** Two such scripts for the same file: if their edits are in different places, gaspra-merge
    writes the file with both, and no conflict. *)
Theorem C129_merged : forall linesep re_w space digit sp emoji normalize, digit_ok digit ->
  forall argv l fs parent from into out b1 b2 b3 k s0 s1, a_linesep linesep -> real_files fs ->
  spelled digit merge_command argv l -> operands_of l = [parent; from; into] -> SpecCommandLine.compatible (flags_of l) ->
  last_output l = Some out -> out <> [] -> without l FStrikeout -> without l FDiff ->
  plain_name parent -> plain_name from -> plain_name into ->
  dget fs parent = Some b1 -> dget fs from = Some b2 -> dget fs into = Some b3 -> unit_asked l k ->
  units re_w k (CStr (read_text b1)) (diff_before s0) -> units re_w k (CStr (read_text b1)) (diff_before s1) ->
  units re_w k (CStr (read_text b3)) (diff_after s0) -> units re_w k (CStr (read_text b2)) (diff_after s1) ->
  distinct_edits s0 -> distinct_edits s1 -> SpecMerge.compatible (edits 0 s0) (edits 0 s1) ->
  let merged := concat (union_text (diff_before s0) (edits 0 s0) (edits 0 s1)) in
  exists fs' b, gaspra_merge linesep re_w space digit sp emoji normalize argv fs = (fs', Ran [] None) /\
    same_but out fs fs' /\ dget fs' out = Some b /\
    (without l FShowLines -> without l FGit -> read_text b = merged) /\
    (In (Flag FShowLines) l \/ In (Flag FGit) l -> read_text b = merged ++ (if ends_line merged then [] else [10])).
Proof. exact edits_merged. Qed.
(** With -g the file has conflict markers exactly if an edit of one collides with one of the
    other. *)
Theorem C129_conflict : forall linesep re_w space digit sp emoji normalize, digit_ok digit ->
  forall argv l fs parent from into out b1 b2 b3 k s0 s1, a_linesep linesep -> real_files fs ->
  spelled digit merge_command argv l -> operands_of l = [parent; from; into] -> SpecCommandLine.compatible (flags_of l) ->
  last_output l = Some out -> out <> [] -> without l FStrikeout -> without l FDiff -> In (Flag FGit) l ->
  plain_name parent -> plain_name from -> plain_name into ->
  dget fs parent = Some b1 -> dget fs from = Some b2 -> dget fs into = Some b3 -> unit_asked l k ->
  units re_w k (CStr (read_text b1)) (diff_before s0) -> units re_w k (CStr (read_text b1)) (diff_before s1) ->
  units re_w k (CStr (read_text b3)) (diff_after s0) -> units re_w k (CStr (read_text b2)) (diff_after s1) ->
  distinct_edits s0 -> distinct_edits s1 ->
  exists fs' b d, gaspra_merge linesep re_w space digit sp emoji normalize argv fs = (fs', Ran [] None) /\
    same_but out fs fs' /\ dget fs' out = Some b /\
    read_text b = git_text (basename into) (basename from) d /\ Forall whole_item d /\
    ((exists x y, In (OChange x y) d) <-> ~ SpecMerge.compatible (edits 0 s0) (edits 0 s1)).
Proof. exact edits_conflict. Qed.
Print Assumptions C129_shown.
Print Assumptions C129_merged.
Print Assumptions C129_conflict.

(** Concrete cases: three lines; one branch replaces the first, the other adds a fourth. *)
Definition nl (s : string) : list Z := str s ++ [10].
Definition script0 : list (ditem (list Z)) := [DChange [nl "A"] [nl "a"]; DText [nl "b"; nl "c"; []]].
Definition script1 : list (ditem (list Z)) := [DText [nl "a"; nl "b"; nl "c"]; DChange [nl "d"] []; DText [[]]].
Definition edited_items : list item :=
  [Flag FLines; Flag FGit; Output (str "out"); Operand (str "parent"); Operand (str "from"); Operand (str "into")].
Definition edited_line : list (list Z) := [str "-lgo"; str "out"; str "parent"; str "from"; str "into"].
Example C129_scripts : distinct_edits script0 /\ distinct_edits script1 /\ SpecMerge.compatible (edits 0 script0) (edits 0 script1).
Proof.
  split; [split; [normal|]; split; [different|]; split; apart|]. split; [split; [normal|]; split; [different|]; split; apart|].
  intros e0 e1 [<-|[]] [<-|[]]. right; left. cbn. lia.
Qed.
Example C129_units : units letter_like KLine (CStr (nl "a" ++ nl "b" ++ nl "c")) (diff_before script0) /\
  diff_before script1 = diff_before script0 /\
  units letter_like KLine (CStr (nl "A" ++ nl "b" ++ nl "c")) (diff_after script0) /\
  units letter_like KLine (CStr (nl "a" ++ nl "b" ++ nl "c" ++ nl "d")) (diff_after script1).
Proof.
  assert (L : forall s, ~ In 10 (str s) -> exists l, ~ In 10 l /\ nl s = l ++ [10]) by (intros s H; exists (str s); auto).
  split; [|split; [reflexivity|split]]; (split; [reflexivity|]).
  - exists [nl "a"; nl "b"; nl "c"], []. split; [reflexivity|]. split; [auto|]. repeat constructor; apply L; vm_compute; intuition discriminate.
  - exists [nl "A"; nl "b"; nl "c"], []. split; [reflexivity|]. split; [auto|]. repeat constructor; apply L; vm_compute; intuition discriminate.
  - exists [nl "a"; nl "b"; nl "c"; nl "d"], []. split; [reflexivity|]. split; [auto|]. repeat constructor; apply L; vm_compute; intuition discriminate.
Qed.
Example C129_asked : unit_asked edited_items KLine /\ without edited_items FDiff /\ In (Flag FGit) edited_items.
Proof. split; [constructor; now left|]. split; [intros K; cbn in K; intuition discriminate|]. cbn; auto. Qed.
Example C129_spelled : spelled decimal merge_command edited_line edited_items.
Proof.
  apply (spelled_opens decimal merge_command (str "-lgo") (str "out") [str "parent"; str "from"; str "into"] [Flag FLines; Flag FGit]
    [Operand (str "parent"); Operand (str "from"); Operand (str "into")]).
  - apply (opens_letters merge_command [FLines; FGit]). repeat constructor; discriminate.
  - apply plain_operand. discriminate.
  - repeat (apply spelled_operand; [apply plain_operand; discriminate|]). constructor.
Qed.
Definition edited_files : files :=
  [(str "parent", nl "a" ++ nl "b" ++ nl "c"); (str "from", nl "a" ++ nl "b" ++ nl "c" ++ nl "d"); (str "into", nl "A" ++ nl "b" ++ nl "c")].
Example C129_example : exists fs', merge_run edited_line edited_files = (fs', Ran [] None) /\
  dget fs' (str "out") = Some (nl "A" ++ nl "b" ++ nl "c" ++ nl "d").
Proof. eexists. split; vm_compute; reflexivity. Qed.
(** when both replace the first line *)
Example C129_example_conflict : exists fs', merge_run edited_line
    [(str "parent", nl "a" ++ nl "b" ++ nl "c"); (str "from", nl "x" ++ nl "b" ++ nl "c"); (str "into", nl "A" ++ nl "b" ++ nl "c")] = (fs', Ran [] None) /\
  dget fs' (str "out") = Some (nl "<<<<<<< into" ++ nl "A" ++ nl "=======" ++ nl "x" ++ nl ">>>>>>> from" ++ nl "b" ++ nl "c").
Proof. eexists. split; vm_compute; reflexivity. Qed.
