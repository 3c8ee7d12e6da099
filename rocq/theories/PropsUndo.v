(** C137: taking a branch out of a file again with gaspra-merge.  [separate] and the four texts
    of the pieces are in SpecSquare, [merges_into] in SpecRuns.  Command lines with the
    argument "--" are not modelled. *)
From Coq Require Import Lia ZArith String.
From Verif Require Import Base Changesets SpecDiff Merge Tokenizers SpecTokenizers Markup SpecMarkup SpecTokens SpecSquare
  Files SpecFiles FilesProofs CommandLine SpecCommandLine SpecPrograms SpecRuns UndoProofs PropsPrograms PropsSquare.
Local Open Scope list_scope.

(** The files [out] and [branch] are [old] with edits in different places, no unit of any of
    them is there twice.  "gaspra-merge -o out old branch out" puts the edits of the branch
    into [out], and "gaspra-merge -o out branch old out" takes them out again: [out] then
    reads as it did before. *)
Theorem C137_undo : forall linesep re_w space digit sp emoji normalize, digit_ok digit -> a_linesep linesep ->
  forall o fs old branch out do_it undo bn bs bf l, real_files fs ->
  merges_into digit o old out branch do_it -> merges_into digit o branch out old undo ->
  plain_name old -> plain_name branch -> plain_name out -> out <> [] -> old <> out -> branch <> out ->
  dget fs old = Some bn -> dget fs branch = Some bs -> dget fs out = Some bf -> separate l ->
  units re_w (tokenizer_of o) (CStr (read_text bn)) (neither l) -> units re_w (tokenizer_of o) (CStr (read_text bf)) (by_first l) ->
  units re_w (tokenizer_of o) (CStr (read_text bs)) (by_second l) ->
  let program := gaspra_merge linesep re_w space digit sp emoji normalize in
  exists fs1 b1 fs2 b2, program do_it fs = (fs1, Ran [] None) /\ same_but out fs fs1 /\
    dget fs1 out = Some b1 /\ read_text b1 = concat (by_both l) /\
    program undo fs1 = (fs2, Ran [] None) /\ same_but out fs fs2 /\
    dget fs2 out = Some b2 /\ read_text b2 = read_text bf.
Proof. exact merge_undone. Qed.
Print Assumptions C137_undo.

(** The texts of C132_texts_example as files *)
Definition undo_files : files := [(str "old", str "abcd"); (str "out", str "xbcd"); (str "new", str "abcyd")].
Definition do_line : list (list Z) := [str "-co"; str "out"; str "old"; str "new"; str "out"].
Definition undo_line : list (list Z) := [str "-co"; str "out"; str "new"; str "old"; str "out"].
Example C137_spelled : merges_into decimal by_characters (str "old") (str "out") (str "new") do_line /\
  merges_into decimal by_characters (str "new") (str "out") (str "old") undo_line.
Proof.
  split; [exists [Flag FCharacters; Output (str "out"); Operand (str "old"); Operand (str "new"); Operand (str "out")]
         |exists [Flag FCharacters; Output (str "out"); Operand (str "new"); Operand (str "old"); Operand (str "out")]];
    (split; [|split; [reflexivity|split; [intros f g; cbn; intuition congruence|split; [reflexivity|]]];
      do 4 (split; [intros X; cbn in X; intuition discriminate|]); constructor; intros X; cbn in X; intuition discriminate]).
  - apply (spelled_opens decimal merge_command (str "-co") (str "out") [str "old"; str "new"; str "out"] [Flag FCharacters]
      [Operand (str "old"); Operand (str "new"); Operand (str "out")]).
    + apply (opens_letters merge_command [FCharacters]). repeat constructor; discriminate.
    + apply plain_operand. discriminate.
    + repeat (apply spelled_operand; [apply plain_operand; discriminate|]). constructor.
  - apply (spelled_opens decimal merge_command (str "-co") (str "out") [str "new"; str "old"; str "out"] [Flag FCharacters]
      [Operand (str "new"); Operand (str "old"); Operand (str "out")]).
    + apply (opens_letters merge_command [FCharacters]). repeat constructor; discriminate.
    + apply plain_operand. discriminate.
    + repeat (apply spelled_operand; [apply plain_operand; discriminate|]). constructor.
Qed.
Example C137_files : real_files undo_files /\ read_text (str "abcd") = str "abcd" /\ read_text (str "xbcd") = str "xbcd" /\ read_text (str "abcyd") = str "abcyd".
Proof. split; [apply real_files_check; reflexivity|]. repeat split; vm_compute; reflexivity. Qed.
Example C137_example : run_each (gaspra_merge [10%Z] (fun _ => false) blank decimal blank (fun _ => None) (fun s => s)) undo_files [do_line] =
    Some [(str "old", str "abcd"); (str "out", str "xbcyd"); (str "new", str "abcyd")] /\
  run_each (gaspra_merge [10%Z] (fun _ => false) blank decimal blank (fun _ => None) (fun s => s)) undo_files [do_line; undo_line] = Some undo_files.
Proof. split; vm_compute; reflexivity. Qed.
