(** C103 to C105: gaspra-diff and gaspra-merge from the files they read to what they write or
    show.  [linesep] is os.linesep, [re_w] what \w matches, [space] what str.isspace accepts,
    [digit] what \d matches; [sp], [emoji] and [normalize] belong to the console.  Command
    lines with the argument "--" are not modelled. *)
From Coq Require Import String.
From Verif Require Import Base Changesets SpecDiff SpecGreedy Merge Tokenizers SpecTokenizers SpecTokens Lines SpecLines Markup SpecMarkup Rich SpecConsole
  ConsoleProofs SpecMarks Files SpecFiles FilesProofs CommandLine SpecCommandLine SpecPrograms ProgramsProofs.
Local Open Scope Z_scope.
Local Open Scope list_scope.

(** C103: gaspra-diff writes the diff of the units asked for, as asked for. *)
Theorem C103_file : forall linesep re_w space digit sp emoji normalize, digit_ok digit ->
  forall argv l fs original modified out b1 b2, a_linesep linesep -> real_files fs ->
  spelled digit diff_command argv l -> operands_of l = [original; modified] -> compatible (flags_of l) ->
  last_output l = Some out -> out <> [] -> without l FStrikeout -> plain_name original -> plain_name modified ->
  dget fs original = Some b1 -> dget fs modified = Some b2 ->
  exists fs' b k t1 t2 D, gaspra_diff linesep re_w space digit sp emoji normalize argv fs = (fs', Ran [] None) /\
    same_but out fs fs' /\ dget fs' out = Some b /\
    unit_asked l k /\ units re_w k (CStr (read_text b1)) t1 /\ units re_w k (CStr (read_text b2)) t2 /\ lcs_diff t1 t2 D /\
    written_as l (lined space) (basename modified) (basename original) (joined D) (read_text b).
Proof. exact diff_written. Qed.
(** C103: without -o the same is shown on the console and no file changes. *)
Theorem C103_console : forall linesep re_w space digit sp emoji normalize, digit_ok digit ->
  forall argv l fs original modified b1 b2, real_files fs ->
  spelled digit diff_command argv l -> operands_of l = [original; modified] -> compatible (flags_of l) ->
  last_output l = None -> without l FStrikeout ->
  dget fs original = Some b1 -> dget fs modified = Some b2 ->
  harmless sp emoji (read_text b1) -> harmless sp emoji (read_text b2) ->
  (In (Flag FGit) l -> simple_name (basename original) /\ simple_name (basename modified)) ->
  exists cells k t1 t2 D, gaspra_diff linesep re_w space digit sp emoji normalize argv fs = (fs, Ran cells None) /\
    unit_asked l k /\ units re_w k (CStr (read_text b1)) t1 /\ units re_w k (CStr (read_text b2)) t2 /\ lcs_diff t1 t2 D /\
    shown_as normalize l (lined space) (basename modified) (basename original) (joined D) cells.
Proof. exact diff_shown. Qed.

(** C104: gaspra-merge writes the merge of the units asked for, with -d after the diffs of the
    two branches. *)
Theorem C104_file : forall linesep re_w space digit sp emoji normalize, digit_ok digit ->
  forall argv l fs parent from into out b1 b2 b3, a_linesep linesep -> real_files fs ->
  spelled digit merge_command argv l -> operands_of l = [parent; from; into] -> compatible (flags_of l) ->
  last_output l = Some out -> out <> [] -> without l FStrikeout -> plain_name parent -> plain_name from -> plain_name into ->
  dget fs parent = Some b1 -> dget fs from = Some b2 -> dget fs into = Some b3 ->
  exists fs' b k tp ti tf Di Df M, gaspra_merge linesep re_w space digit sp emoji normalize argv fs = (fs', Ran [] None) /\
    same_but out fs fs' /\ dget fs' out = Some b /\
    unit_asked l k /\ units re_w k (CStr (read_text b1)) tp /\ units re_w k (CStr (read_text b3)) ti /\ units re_w k (CStr (read_text b2)) tf /\
    lcs_diff tp ti Di /\ lcs_diff tp tf Df /\ merge_token_sequence KTuple tp ti tf = Ok M /\
    (without l FDiff -> written_as l (merge_lined space l) (basename into) (basename from) (joined M) (read_text b)) /\
    (In (Flag FDiff) l -> exists x1 x2 x3 y1 y2 y3, read_text b = y1 ++ y2 ++ y3 /\
      written_as l (lined space) (basename into) (basename parent) (joined Di) x1 /\ headed l (basename into) x1 y1 /\
      written_as l (lined space) (basename from) (basename parent) (joined Df) x2 /\ headed l (basename from) x2 y2 /\
      written_as l (merge_lined space l) (basename into) (basename from) (joined M) x3 /\ headed l (str "Merged") x3 y3).
Proof. exact merge_written. Qed.
(** C104: without -o the same is shown on the console and no file changes. *)
Theorem C104_console : forall linesep re_w space digit sp emoji normalize, digit_ok digit ->
  forall argv l fs parent from into b1 b2 b3, real_files fs ->
  spelled digit merge_command argv l -> operands_of l = [parent; from; into] -> compatible (flags_of l) ->
  last_output l = None -> without l FStrikeout ->
  dget fs parent = Some b1 -> dget fs from = Some b2 -> dget fs into = Some b3 ->
  (In (Flag FGit) l \/ In (Flag FDiff) l -> simple_name (basename parent) /\ simple_name (basename from) /\ simple_name (basename into)) ->
  (In (Flag FDiff) l -> harmless sp emoji (read_text b1) /\ harmless sp emoji (read_text b2) /\ harmless sp emoji (read_text b3)) ->
  exists k tp ti tf Di Df M,
    unit_asked l k /\ units re_w k (CStr (read_text b1)) tp /\ units re_w k (CStr (read_text b3)) ti /\ units re_w k (CStr (read_text b2)) tf /\
    lcs_diff tp ti Di /\ lcs_diff tp tf Df /\ merge_token_sequence KTuple tp ti tf = Ok M /\
    (harmless sp emoji (concat (diff_after M)) -> harmless sp emoji (concat (diff_before M)) ->
     exists cells, gaspra_merge linesep re_w space digit sp emoji normalize argv fs = (fs, Ran cells None) /\
    (without l FDiff -> shown_as normalize l (merge_lined space l) (basename into) (basename from) (joined M) cells) /\
    (In (Flag FDiff) l -> exists x1 x2 x3 y1 y2 y3, cells = y1 ++ y2 ++ y3 /\
      shown_as normalize l (lined space) (basename into) (basename parent) (joined Di) x1 /\ headed_cells normalize l (basename into) x1 y1 /\
      shown_as normalize l (lined space) (basename from) (basename parent) (joined Df) x2 /\ headed_cells normalize l (basename from) x2 y2 /\
      shown_as normalize l (merge_lined space l) (basename into) (basename from) (joined M) x3 /\ headed_cells normalize l (str "Merged") x3 y3)).
Proof. exact merge_shown. Qed.

(** C105, full statement: the two sides of a conflict shown by gaspra-merge differ.  It is false
    with words, lines and characters as units: the file that gaspra-merge -g writes can have a
    conflict between a text and itself. *)
Definition decimal (c : Z) : bool := (48 <=? c) && (c <=? 57).
Definition blank (c : Z) : bool := (c =? 32) || (c =? 10).
Definition letter_like (c : Z) : bool := (97 <=? c) && (c <=? 122).
Definition same_sides (s : list Z) : list Z :=
  str "<<<<<<< into" ++ [10] ++ s ++ str "=======" ++ [10] ++ s ++ str ">>>>>>> from" ++ [10].
Theorem C105_words_refuted : exists fs fs', real_files fs /\
  gaspra_merge [10] letter_like blank decimal blank (fun _ => None) (fun s => s)
    [str "-wgo"; str "out"; str "parent"; str "from"; str "into"] fs = (fs', Ran [] None) /\
  dget fs' (str "out") = Some (same_sides (str "ab " ++ [10])).
Proof.
  exists [(str "parent", str "ab ab"); (str "from", str "a"); (str "into", str "ab b ")]. eexists.
  split; [apply real_files_check; reflexivity|]. split; vm_compute; reflexivity.
Qed.
Theorem C105_lines_refuted : exists fs fs', real_files fs /\
  gaspra_merge [10] letter_like blank decimal blank (fun _ => None) (fun s => s)
    [str "-lgo"; str "out"; str "parent"; str "from"; str "into"] fs = (fs', Ran [] None) /\
  dget fs' (str "out") = Some (same_sides [] ++ str "a" ++ [10] ++ same_sides []).
Proof.
  exists [(str "parent", str "a" ++ [10] ++ str "c"); (str "from", []); (str "into", str "a" ++ [10] ++ str "a" ++ [10])]. eexists.
  split; [apply real_files_check; reflexivity|]. split; vm_compute; reflexivity.
Qed.
(** With characters: the conflicts of the merge, gathered into lines, cancel out. *)
Theorem C105_characters_refuted : exists fs fs', real_files fs /\
  gaspra_merge [10] letter_like blank decimal blank (fun _ => None) (fun s => s)
    [str "-go"; str "out"; str "parent"; str "from"; str "into"] fs = (fs', Ran [] None) /\
  dget fs' (str "out") = Some (same_sides (str "caa" ++ [10])).
Proof.
  exists [(str "parent", str "abab"); (str "from", str "caa"); (str "into", str "caab")]. eexists.
  split; [apply real_files_check; reflexivity|]. split; vm_compute; reflexivity.
Qed.
(** What holds: with characters as units the sides of every conflict of the merge, before they
    are gathered into lines, have no character in common and are not both empty. *)
Theorem C105_characters_partial : forall re_w p c t tp tc tt M,
  units re_w KChar (CStr p) tp -> units re_w KChar (CStr c) tc -> units re_w KChar (CStr t) tt ->
  merge_token_sequence KTuple tp tc tt = Ok M ->
  forall a b, In (DChange a b) (joined M) -> a <> b /\ forall x, In x a -> In x b -> False.
Proof. exact conflicts_differ. Qed.

Print Assumptions C103_file.
Print Assumptions C103_console.
Print Assumptions C104_file.
Print Assumptions C104_console.
Print Assumptions C105_words_refuted.
Print Assumptions C105_lines_refuted.
Print Assumptions C105_characters_refuted.
Print Assumptions C105_characters_partial.

(** Concrete cases. *)
Lemma plain_operand c x r : x <> 45 -> operand_like decimal c (x :: r).
Proof. intros H. right. left. eauto. Qed.
Definition diff_line : list (list Z) := [str "-lo"; str "out"; str "old"; str "new"].
Definition diff_items : list item := [Flag FLines; Output (str "out"); Operand (str "old"); Operand (str "new")].
Example C103_spelled : spelled decimal diff_command diff_line diff_items.
Proof.
  apply (spelled_opens decimal diff_command (str "-lo") (str "out") [str "old"; str "new"] [Flag FLines] [Operand (str "old"); Operand (str "new")]).
  - apply (opens_letters diff_command [FLines]). repeat constructor; discriminate.
  - apply plain_operand. discriminate.
  - repeat (apply spelled_operand; [apply plain_operand; discriminate|]). constructor.
Qed.
Example C103_hypotheses : digit_ok decimal /\ a_linesep [10] /\ operands_of diff_items = [str "old"; str "new"] /\ compatible (flags_of diff_items) /\
  last_output diff_items = Some (str "out") /\ without diff_items FStrikeout /\ plain_name (str "old") /\ plain_name (str "new").
Proof.
  split; [split; reflexivity|]. split; [now left|]. split; [reflexivity|].
  split; [intros f g [<-|[]] [<-|[]] _ _; reflexivity|]. split; [reflexivity|].
  split; [intros K; cbn in K; intuition discriminate|]. split; (split; [repeat constructor; vm_compute; intuition (discriminate || congruence)|vm_compute; intuition discriminate]).
Qed.
Definition old_new : files := [(str "old", str "one" ++ [10] ++ str "two" ++ [10]); (str "new", str "one" ++ [10] ++ str "too" ++ [10])].
Notation diff_run := (gaspra_diff [10] letter_like blank decimal blank (fun _ => None) (fun s => s)).
Notation merge_run := (gaspra_merge [10] letter_like blank decimal blank (fun _ => None) (fun s => s)).
(** with -l a whole line is replaced, with characters a letter *)
Example C103_example : exists fs' fs'', diff_run diff_line old_new = (fs', Ran [] None) /\
  dget fs' (str "out") = Some (str "one" ++ [10] ++ str "[green4]too" ++ [10] ++ str "[/][dark_red]two" ++ [10] ++ str "[/]") /\
  diff_run [str "-o"; str "out"; str "old"; str "new"] old_new = (fs'', Ran [] None) /\
  dget fs'' (str "out") = Some (str "one" ++ [10] ++ str "t[green4]o[/][dark_red]w[/]o" ++ [10]).
Proof. do 2 eexists. repeat split; vm_compute; reflexivity. Qed.
(** -L on the console: the lines of the Change, and inside what differs *)
Example C103_console_example : diff_run [str "-L"; str "old"; str "new"] old_new =
  (old_new, Ran (put (str "one" ++ [10]) [] ++ put (str "t") [str "green4"] ++ put (str "o") [str "light_green"; str "green4"] ++ put (str "o" ++ [10]) [str "green4"] ++
                 put (str "t") [str "dark_red"] ++ put (str "w") [str "pink1"; str "dark_red"] ++ put (str "o" ++ [10]) [str "dark_red"]) None).
Proof. vm_compute. reflexivity. Qed.
Example C103_harmless : harmless blank (fun _ => None) (str "one" ++ [10] ++ str "two" ++ [10]) /\ simple_name (str "old").
Proof.
  split; repeat split; try (vm_compute; intuition discriminate); try (repeat constructor; vm_compute; intuition discriminate).
  intros (u & n & v & w & _ & _ & _ & H). now apply H.
Qed.
Definition merge_line : list (list Z) := [str "-wdo"; str "out"; str "parent"; str "from"; str "into"].
Definition merge_items : list item :=
  [Flag FWords; Flag FDiff; Output (str "out"); Operand (str "parent"); Operand (str "from"); Operand (str "into")].
Example C104_spelled : spelled decimal merge_command merge_line merge_items.
Proof.
  apply (spelled_opens decimal merge_command (str "-wdo") (str "out") [str "parent"; str "from"; str "into"] [Flag FWords; Flag FDiff]
    [Operand (str "parent"); Operand (str "from"); Operand (str "into")]).
  - apply (opens_letters merge_command [FWords; FDiff]). repeat constructor; discriminate.
  - apply plain_operand. discriminate.
  - repeat (apply spelled_operand; [apply plain_operand; discriminate|]). constructor.
Qed.
Definition three_files : files :=
  [(str "parent", str "the old cat sat"); (str "from", str "the odd cat sits"); (str "into", str "the new cat sat")].
Example C104_example : exists fs', merge_run merge_line three_files = (fs', Ran [] None) /\
  dget fs' (str "out") = Some ([10] ++ str "<<<[bright_blue]into[/]>>>" ++ [10] ++ str "the [green4]new[/][dark_red]old[/] cat sat" ++
    [10] ++ str "<<<[bright_blue]from[/]>>>" ++ [10] ++ str "the [green4]odd[/][dark_red]old[/] cat [green4]sits[/][dark_red]sat[/]" ++
    [10] ++ str "<<<[bright_blue]Merged[/]>>>" ++ [10] ++ str "the [green4]new[/][dark_red]odd[/] cat sits").
Proof. eexists. split; vm_compute; reflexivity. Qed.
Example C104_console_example : merge_run [str "-wg"; str "parent"; str "from"; str "into"] three_files =
  (three_files, Ran (put (str "<<<<<<< into" ++ [10]) [] ++ put (str "the ") [] ++ put (str "new") [str "light_green"] ++ put (str " cat sits" ++ [10]) [] ++
    put (str "=======" ++ [10]) [] ++ put (str "the ") [] ++ put (str "odd") [str "pink1"] ++ put (str " cat sits" ++ [10]) [] ++
    put (str ">>>>>>> from" ++ [10]) []) None).
Proof. vm_compute. reflexivity. Qed.
Example C105_example : merge_token_sequence KTuple [[97]; [98]] [[99]; [98]] [[100]; [98]] = Ok [DChange [[99]] [[100]]; DText [[98]]].
Proof. vm_compute. reflexivity. Qed.
