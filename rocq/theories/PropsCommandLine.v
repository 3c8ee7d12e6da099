(** C93 to C98: gaspra-diff, gaspra-merge and gaspra-torture from the command line to the
    files and the console.  [linesep] is os.linesep, [digit] what \d matches, [sp], [emoji]
    and [normalize] belong to the console; nothing is assumed of [re_w], [space], [sp],
    [emoji] and [normalize].  Command lines with more than one argument "--" are left
    out: [one_dashes]. *)
From Coq Require Import String.
From Verif Require Import Base Tokenizers SpecTokenizers Lines SpecLines Markup SpecMarkup Rich Files SpecFiles
  CommandLine SpecCommandLine CommandLineProofs CommandLineRuns.
Local Open Scope Z_scope.
Local Open Scope list_scope.

(** C93: a command line is accepted exactly if it is spelled as described, with the right
    number of operands and not two of -c, -w and -l; and this is what it is taken for. *)
Theorem C93_accepted : forall digit c, digit_ok digit -> forall argv, one_dashes argv ->
  forall n, parse_args digit c argv = Parsed n <->
  exists l, spelled digit c argv l /\ length (operands_of l) = c_operands c /\ compatible (flags_of l) /\
    n = mkNs (operands_of l) (flags_of l) (last_output l) false.
Proof. intros digit c DO argv OD n. exact (parse_exactly digit c DO argv n OD). Qed.
(** C93: it cannot be read in two ways. *)
Theorem C93_unique : forall digit c, digit_ok digit -> forall argv l, spelled digit c argv l ->
  forall l', spelled digit c argv l' -> l = l'.
Proof. exact spelled_unique. Qed.
(** C93: order and spelling of the options do not matter. *)
Theorem C93_merge_order : forall linesep re_w space digit sp emoji normalize, digit_ok digit ->
  forall argv argv' l l' fs, spelled digit merge_command argv l -> spelled digit merge_command argv' l' -> same_meaning l l' ->
  gaspra_merge linesep re_w space digit sp emoji normalize argv fs = gaspra_merge linesep re_w space digit sp emoji normalize argv' fs.
Proof. exact merge_meaning. Qed.
Theorem C93_diff_order : forall linesep re_w space digit sp emoji normalize, digit_ok digit ->
  forall argv argv' l l' fs, spelled digit diff_command argv l -> spelled digit diff_command argv' l' -> same_meaning l l' ->
  gaspra_diff linesep re_w space digit sp emoji normalize argv fs = gaspra_diff linesep re_w space digit sp emoji normalize argv' fs.
Proof. exact diff_meaning. Qed.
Theorem C93_torture_order : forall linesep re_w space digit sp emoji normalize directory, digit_ok digit ->
  forall argv argv' l l' fs, spelled digit torture_command argv l -> spelled digit torture_command argv' l' -> same_meaning l l' ->
  gaspra_torture linesep re_w space digit sp emoji normalize directory argv fs =
  gaspra_torture linesep re_w space digit sp emoji normalize directory argv' fs.
Proof. exact torture_meaning. Qed.

(** C94: whatever the command line, at most the file named last as the output is written;
    a program that exits early has written nothing. *)
Theorem C94_merge_touches : forall linesep re_w space digit sp emoji normalize, digit_ok digit ->
  forall argv fs fs' o, one_dashes argv ->
  gaspra_merge linesep re_w space digit sp emoji normalize argv fs = (fs', o) ->
  touches_only digit argv merge_command fs fs' /\ (forall z, o = Exited z -> fs' = fs /\ (z = 0 \/ z = 2)).
Proof. exact merge_touches. Qed.
Theorem C94_diff_touches : forall linesep re_w space digit sp emoji normalize, digit_ok digit ->
  forall argv fs fs' o, one_dashes argv ->
  gaspra_diff linesep re_w space digit sp emoji normalize argv fs = (fs', o) ->
  touches_only digit argv diff_command fs fs' /\ (forall z, o = Exited z -> fs' = fs /\ (z = 0 \/ z = 2)).
Proof. exact diff_touches. Qed.
Theorem C94_torture_touches : forall linesep re_w space digit sp emoji normalize directory, digit_ok digit ->
  forall argv fs fs' o, one_dashes argv ->
  gaspra_torture linesep re_w space digit sp emoji normalize directory argv fs = (fs', o) ->
  touches_only digit argv torture_command fs fs' /\ (forall z, o = Exited z -> fs' = fs /\ (z = 0 \/ z = 2)).
Proof. exact torture_touches. Qed.
(** C94: operands missing or too many, or two of -c, -w, -l: exit with status 2. *)
Theorem C94_rejected : forall digit c, digit_ok digit -> forall argv l, spelled digit c argv l ->
  length (operands_of l) <> c_operands c \/ ~ compatible (flags_of l) -> parse_args digit c argv = Exit 2.
Proof. exact spelled_rejected. Qed.
(** C94: asking for help: exit with status 0, whatever else is missing. *)
Theorem C94_help : forall digit c, digit_ok digit -> forall pre post l k h,
  spelled digit c pre l -> ~ In (str "--") pre -> compatible (flags_of l) -> spelled digit c post k ->
  h = str "-h" \/ (exists p, h = 45 :: 45 :: p /\ abbreviates c p (str "help")) ->
  parse_args digit c (pre ++ h :: post) = Exit 0.
Proof. exact parse_help. Qed.
(** C94: a beginning of more than one name: exit with status 2, also after asking for help. *)
Theorem C94_ambiguous : forall digit c pre p v post n n', ~ In (str "--") pre -> ~ In 61 p -> v = [] \/ (exists s, v = 61 :: s) ->
  p ++ v <> [] -> is_name c n -> is_name c n' -> n <> n' -> prefix p n -> prefix p n' ->
  parse_args digit c (pre ++ (45 :: 45 :: p ++ v) :: post) = Exit 2.
Proof. exact parse_ambiguous. Qed.
Print Assumptions C94_ambiguous.
Example C94_ambiguous_example : is_name merge_command (str "strikeout") /\ is_name merge_command (str "show-lines") /\
  prefix (str "s") (str "strikeout") /\ prefix (str "s") (str "show-lines") /\
  parse_args (fun _ => false) merge_command [str "--help"; str "--s"] = Exit 2 /\
  parse_args (fun _ => false) merge_command [str "--help"; str "--st"] = Exit 0.
Proof.
  assert (H : forall f, f <> FDiff -> has merge_command f) by (intros f H F; contradiction).
  repeat split.
  - do 2 right. exists FStrikeout. split; [apply H; discriminate|reflexivity].
  - do 2 right. exists FShowLines. split; [apply H; discriminate|reflexivity].
  - eexists. reflexivity.
  - eexists. reflexivity.
Qed.

(** C95: the first operand of gaspra-merge is the parent, the second the branch merged from,
    the third the branch merged into: where only one branch differs from the parent, or both
    agree, the output file gets that branch. *)
Theorem C95_roles : forall linesep re_w space digit sp emoji normalize, digit_ok digit ->
  forall argv l fs parent from into out b1 b2 b3, a_linesep linesep -> real_files fs ->
  spelled digit merge_command argv l -> operands_of l = [parent; from; into] -> compatible (flags_of l) ->
  last_output l = Some out -> out <> [] ->
  without l FDiff -> without l FShowLines -> without l FGit ->
  plain_name parent -> plain_name from -> plain_name into ->
  dget fs parent = Some b1 -> dget fs from = Some b2 -> dget fs into = Some b3 ->
  exists fs' b, gaspra_merge linesep re_w space digit sp emoji normalize argv fs = (fs', Ran [] None) /\
    same_but out fs fs' /\ dget fs' out = Some b /\
    (read_text b2 = read_text b1 -> read_text b = read_text b3) /\
    (read_text b3 = read_text b1 \/ read_text b3 = read_text b2 -> read_text b = read_text b2).
Proof. exact merge_roles. Qed.
(** C95: with -g a conflict has the branch merged into first, under its name, and the branch
    merged from second. *)
Theorem C95_git_roles : forall linesep re_w space digit sp emoji normalize, digit_ok digit ->
  forall argv l fs parent from into out b1 b2 b3, a_linesep linesep -> real_files fs ->
  spelled digit merge_command argv l -> operands_of l = [parent; from; into] -> compatible (flags_of l) ->
  last_output l = Some out -> out <> [] ->
  without l FDiff -> In (Flag FGit) l ->
  plain_name parent -> plain_name from -> plain_name into ->
  dget fs parent = Some b1 -> dget fs from = Some b2 -> dget fs into = Some b3 ->
  exists fs' b d m tail, gaspra_merge linesep re_w space digit sp emoji normalize argv fs = (fs', Ran [] None) /\
    same_but out fs fs' /\ dget fs' out = Some b /\
    read_text b = git_text (basename into) (basename from) d /\
    merge_result re_w (options_of (mkNs (operands_of l) (flags_of l) (last_output l) false))
      (read_text b1) (read_text b3) (read_text b2) = Ok m /\
    (tail = [] \/ tail = [10]) /\ into_text d = text_after m ++ tail /\ from_text d = text_before m ++ tail.
Proof. exact merge_git_roles. Qed.

(** C96, full statement: gaspra-merge -s -d, the command of README.md:30, shows the diffs and
    the merge.  It is false: *)
Definition decimal (c : Z) : bool := (48 <=? c) && (c <=? 57).
Definition blank (c : Z) : bool := (c =? 32) || (c =? 10).
Definition readme : list (list Z) := [str "-sdc"; str "data/tale0"; str "data/tale1-reflowed"; str "data/tale2-edited"].
Theorem C96_readme_refuted : exists fs cells, real_files fs /\
  gaspra_merge [10] decimal blank decimal blank (fun _ => None) (fun s => s) readme fs = (fs, Ran cells (Some TypeError)).
Proof.
  exists [(str "data/tale0", str "It was the best of times"); (str "data/tale1-reflowed", str "It was the best" ++ [10] ++ str "of times");
          (str "data/tale2-edited", str "It was the worst of times")].
  eexists. split; [|vm_compute; reflexivity].
  intros n b H. cbn [dget] in H.
  repeat (destruct (teq _ n) in H; [injection H as <-; repeat constructor; vm_compute; congruence|]). discriminate.
Qed.
(** It fails whenever one of the two diffs, or the merge, has something to strike out. *)
Theorem C96_strikeout_fails_partial : forall linesep re_w space digit sp emoji normalize, digit_ok digit ->
  forall argv l fs parent from into b1 b2 b3, real_files fs ->
  spelled digit merge_command argv l -> operands_of l = [parent; from; into] -> compatible (flags_of l) ->
  In (Flag FStrikeout) l -> In (Flag FDiff) l ->
  dget fs parent = Some b1 -> dget fs from = Some b2 -> dget fs into = Some b3 ->
  let o := options_of (mkNs (operands_of l) (flags_of l) (last_output l) false) in
  forall dc dt m,
  snd (diff re_w (tokenizer_of o) new_tokenizer (CStr (read_text b1)) (CStr (read_text b3))) = Ok dc ->
  snd (diff re_w (tokenizer_of o) new_tokenizer (CStr (read_text b1)) (CStr (read_text b2))) = Ok dt ->
  merge_result re_w o (read_text b1) (read_text b3) (read_text b2) = Ok m ->
  existsb (removes o) (dc ++ dt ++ m) = true ->
  exists fs' cells e, gaspra_merge linesep re_w space digit sp emoji normalize argv fs = (fs', Ran cells (Some e)).
Proof. exact strikeout_fails. Qed.
(** What holds: without -d, -s does nothing. *)
Theorem C96_idle_partial : forall linesep re_w space digit sp emoji normalize, digit_ok digit ->
  forall argv argv' l l' fs, spelled digit merge_command argv l -> spelled digit merge_command argv' l' ->
  operands_of l = operands_of l' -> last_output l = last_output l' ->
  (forall f, f <> FStrikeout -> (In (Flag f) l <-> In (Flag f) l')) -> without l FDiff ->
  gaspra_merge linesep re_w space digit sp emoji normalize argv fs = gaspra_merge linesep re_w space digit sp emoji normalize argv' fs.
Proof. exact strikeout_idle. Qed.

(** C97: gaspra-torture is gaspra-merge on the parent, the second and the first branch of the
    test case. *)
Theorem C97_torture_is_merge : forall linesep re_w space digit sp emoji normalize directory, digit_ok digit ->
  forall argv argv' l l' fs t parent branch0 branch1,
  spelled digit torture_command argv l -> spelled digit merge_command argv' l' ->
  operands_of l = [t] -> get_filenames directory t = (parent, branch0, branch1) -> operands_of l' = [parent; branch1; branch0] ->
  last_output l = last_output l' -> (forall f, In (Flag f) l <-> In (Flag f) l') ->
  gaspra_torture linesep re_w space digit sp emoji normalize directory argv fs =
  gaspra_merge linesep re_w space digit sp emoji normalize argv' fs.
Proof. exact torture_is_merge. Qed.
(** Whatever gaspra-torture is asked, gaspra-merge can be asked, and the other way round. *)
Theorem C97_options : forall digit argv l, spelled digit torture_command argv l <-> spelled digit merge_command argv l.
Proof. exact torture_options. Qed.
Print Assumptions C97_options.
Example C97_options_example : spelled (fun _ => false) torture_command [str "-d"] [Flag FDiff].
Proof.
  apply (spelled_says _ _ [45; 100] [] [Flag FDiff] []); [|apply spelled_nil].
  apply (says_letters torture_command [FDiff]); [discriminate|]. apply Forall_cons; [|apply Forall_nil]. intros _. reflexivity.
Qed.
Theorem C97_files : forall directory t, dget EXCEPTIONS t = None -> t <> [] -> ~ prefix [47] t ->
  get_filenames directory t =
  (directory ++ str "/" ++ t ++ str ".parent", directory ++ str "/" ++ t ++ str ".1st", directory ++ str "/" ++ t ++ str ".2nd").
Proof. exact filenames_plain. Qed.
Theorem C97_listed_files : forall directory, let file n := directory ++ str "/" ++ str n in
  get_filenames directory (str "chunks") = (file "chunks_1_0.c"%string, file "chunks_1_1.c"%string, file "chunks_1_2.c"%string) /\
  get_filenames directory (str "ReleaseNotes") = (file "ReleaseNotes 9_4.html"%string, file "ReleaseNotes 9_4_1.html"%string, file "ReleaseNotes 9_4_2.html"%string) /\
  get_filenames directory (str "Bug_ReporterApp") = (file "Bug_ReporterApp_Parent.h"%string, file "Bug_ReporterApp_BranchA.h"%string, file "Bug_ReporterApp_BranchB.h"%string).
Proof. exact filenames_listed. Qed.
Theorem C97_distinct_files : forall directory t p b0 b1, get_filenames directory t = (p, b0, b1) -> p <> b0 /\ p <> b1 /\ b0 <> b1.
Proof. exact filenames_distinct. Qed.

(** C98: an accepted command line of gaspra-merge merges exactly the files it names, with
    exactly the options it asks for, into the output file (C69) or onto the console (C71). *)
Theorem C98_merge : forall linesep re_w space digit sp emoji normalize, digit_ok digit ->
  forall argv l fs parent from into o, spelled digit merge_command argv l -> operands_of l = [parent; from; into] ->
  compatible (flags_of l) -> asks l o ->
  (forall out, last_output l = Some out -> out <> [] ->
    gaspra_merge linesep re_w space digit sp emoji normalize argv fs =
    (let '(fs', x) := merge_files linesep re_w space fs o parent into from out in (fs', Ran [] x))) /\
  (forall p i f, last_output l = None -> get_text fs [parent; into; from] = Ok [p; i; f] ->
    gaspra_merge linesep re_w space digit sp emoji normalize argv fs =
    (fs, let '(cells, x) := on_console sp emoji normalize
      (snd (merge_cli re_w space o p i f (basename parent) (basename into) (basename from) initial_styles)) in Ran cells x)).
Proof. exact merge_runs. Qed.
Theorem C98_diff : forall linesep re_w space digit sp emoji normalize, digit_ok digit ->
  forall argv l fs original modified o, spelled digit diff_command argv l -> operands_of l = [original; modified] ->
  compatible (flags_of l) -> asks l o ->
  (forall out, last_output l = Some out -> out <> [] ->
    gaspra_diff linesep re_w space digit sp emoji normalize argv fs =
    (let '(fs', x) := diff_files linesep re_w space fs o original modified out in (fs', Ran [] x))) /\
  (forall a b, last_output l = None -> get_text fs [original; modified] = Ok [a; b] ->
    gaspra_diff linesep re_w space digit sp emoji normalize argv fs =
    (fs, let '(cells, x) := on_console sp emoji normalize
      (snd (diff_cli re_w space o a b (basename original) (basename modified) initial_styles)) in Ran cells x)).
Proof. exact diff_runs. Qed.
(** C98: if an input does not exist, nothing is shown or written. *)
Theorem C98_merge_missing : forall linesep re_w space digit sp emoji normalize, digit_ok digit ->
  forall argv l fs parent from into, spelled digit merge_command argv l -> operands_of l = [parent; from; into] ->
  compatible (flags_of l) -> (exists n, In n [parent; from; into] /\ dget fs n = None) ->
  gaspra_merge linesep re_w space digit sp emoji normalize argv fs = (fs, Ran [] (Some OSError)).
Proof. exact merge_missing. Qed.
Theorem C98_diff_missing : forall linesep re_w space digit sp emoji normalize, digit_ok digit ->
  forall argv l fs original modified, spelled digit diff_command argv l -> operands_of l = [original; modified] ->
  compatible (flags_of l) -> (exists n, In n [original; modified] /\ dget fs n = None) ->
  gaspra_diff linesep re_w space digit sp emoji normalize argv fs = (fs, Ran [] (Some OSError)).
Proof. exact diff_missing. Qed.

Print Assumptions C93_accepted.
Print Assumptions C93_unique.
Print Assumptions C93_merge_order.
Print Assumptions C93_diff_order.
Print Assumptions C93_torture_order.
Print Assumptions C94_merge_touches.
Print Assumptions C94_diff_touches.
Print Assumptions C94_torture_touches.
Print Assumptions C94_rejected.
Print Assumptions C94_help.
Print Assumptions C95_roles.
Print Assumptions C95_git_roles.
Print Assumptions C96_readme_refuted.
Print Assumptions C96_strikeout_fails_partial.
Print Assumptions C96_idle_partial.
Print Assumptions C97_torture_is_merge.
Print Assumptions C97_files.
Print Assumptions C97_listed_files.
Print Assumptions C97_distinct_files.
Print Assumptions C98_merge.
Print Assumptions C98_diff.
Print Assumptions C98_merge_missing.
Print Assumptions C98_diff_missing.

(** Concrete cases. *)
Example C93_digit : digit_ok decimal.
Proof. split; reflexivity. Qed.
Definition short_line : list (list Z) := [str "-gwo"; str "x"; str "p"; str "f"; str "i"].
Definition long_line : list (list Z) := [str "p"; str "f"; str "--out=x"; str "--words"; str "i"; str "--git"].
Definition short_items : list item := [Flag FGit; Flag FWords; Output (str "x"); Operand (str "p"); Operand (str "f"); Operand (str "i")].
Definition long_items : list item := [Operand (str "p"); Operand (str "f"); Output (str "x"); Flag FWords; Operand (str "i"); Flag FGit].
Lemma plain_operand d c x r : x <> 45 -> operand_like d c (x :: r).
Proof. intros H. right. left. eauto. Qed.
Ltac one_name := split; [|split; [eexists; vm_compute; reflexivity|]];
  [first [now left | now right; left | right; right; eexists; split; [|reflexivity]; intros ?; discriminate || reflexivity]|
   intros n' [->|[->|([] & _ & ->)]] [r E]; vm_compute in E |- *; try reflexivity; discriminate].
Example C93_short : spelled decimal merge_command short_line short_items.
Proof.
  apply (spelled_opens decimal merge_command (str "-gwo") (str "x") [str "p"; str "f"; str "i"] [Flag FGit; Flag FWords]
           [Operand (str "p"); Operand (str "f"); Operand (str "i")]).
  - apply (opens_letters merge_command [FGit; FWords]). repeat constructor; discriminate.
  - apply plain_operand. discriminate.
  - repeat (apply spelled_operand; [apply plain_operand; discriminate|]). constructor.
Qed.
Example C93_long : spelled decimal merge_command long_line long_items.
Proof.
  do 2 (apply spelled_operand; [apply plain_operand; discriminate|]).
  apply (spelled_says decimal merge_command (str "--out=x") _ [Output (str "x")] [Flag FWords; Operand (str "i"); Flag FGit]).
  { apply (says_output merge_command (str "out") (str "x")). one_name. }
  apply (spelled_says decimal merge_command (str "--words") _ [Flag FWords] [Operand (str "i"); Flag FGit]).
  { apply says_name; [discriminate|]. one_name. }
  apply spelled_operand; [apply plain_operand; discriminate|].
  apply (spelled_says decimal merge_command (str "--git") [] [Flag FGit] []); [|constructor].
  apply says_name; [discriminate|]. one_name.
Qed.
Example C93_same : same_meaning short_items long_items.
Proof. split; [reflexivity|]. split; [reflexivity|]. intros f. cbn. intuition (congruence || discriminate). Qed.
Example C93_parsed : parse_args decimal merge_command long_line = Parsed (mkNs [str "p"; str "f"; str "i"] [FWords; FGit] (Some (str "x")) false)
  /\ parse_args decimal diff_command [str "-d"; str "a"; str "b"] = Exit 2
  /\ parse_args decimal merge_command [str "-o"; str "-1"; str "-1"; str "a b"; str "-"] = Parsed (mkNs [str "-1"; str "a b"; str "-"] [] (Some (str "-1")) false).
Proof. repeat split; vm_compute; reflexivity. Qed.
Example C94_example : parse_args decimal merge_command [str "-cw"; str "p"; str "f"; str "i"] = Exit 2
  /\ parse_args decimal merge_command [str "p"; str "--he"; str "-c"] = Exit 0
  /\ parse_args decimal merge_command [str "-cw"; str "-h"] = Exit 2.
Proof. repeat split; vm_compute; reflexivity. Qed.
(** After -- a name may begin with a dash. *)
Example C93_dashes : spelled decimal diff_command [str "-w"; str "--"; str "-a"; str "--help"] [Flag FWords; Operand (str "-a"); Operand (str "--help")]
  /\ parse_args decimal diff_command [str "-w"; str "--"; str "-a"; str "--help"] = Parsed (mkNs [str "-a"; str "--help"] [FWords] None false)
  /\ parse_args decimal diff_command [str "a"; str "--"; str "-w"] = Parsed (mkNs [str "a"; str "-w"] [] None false)
  /\ parse_args decimal diff_command [str "-w"; str "a"; str "b"; str "--"] = Parsed (mkNs [str "a"; str "b"] [FWords] None false)
  /\ parse_args decimal diff_command [str "a"; str "b"; str "-w"; str "--"] = Exit 2
  /\ parse_args decimal diff_command [str "-o"; str "--"; str "a"; str "b"] = Exit 2.
Proof.
  split; [|repeat split; vm_compute; reflexivity].
  apply (spelled_says decimal diff_command (str "-w") _ [Flag FWords] [Operand (str "-a"); Operand (str "--help")]).
  - apply (says_letters diff_command [FWords]); [discriminate|]. repeat constructor; discriminate.
  - apply (spelled_dashes decimal diff_command [str "-a"; str "--help"]); [discriminate|]. intros [J|[J|[]]]; discriminate.
Qed.
Definition some_files : files := [(str "p", str "a b c"); (str "f", str "a b d"); (str "i", str "x b c")].
Example C95_example : exists fs', gaspra_merge [10] decimal blank decimal blank (fun _ => None) (fun s => s)
    [str "-wo"; str "x"; str "p"; str "f"; str "i"] some_files = (fs', Ran [] None) /\ dget fs' (str "x") = Some (str "x b d").
Proof. eexists. split; vm_compute; reflexivity. Qed.
Example C95_git_example : exists fs', gaspra_merge [10] decimal blank decimal blank (fun _ => None) (fun s => s)
    [str "-go"; str "x"; str "d/p"; str "d/f"; str "d/i"] [(str "d/p", str "a"); (str "d/f", str "b"); (str "d/i", str "c")] = (fs', Ran [] None) /\
  dget fs' (str "x") = Some (str "<<<<<<< i" ++ [10] ++ str "c" ++ [10] ++ str "=======" ++ [10] ++ str "b" ++ [10] ++ str ">>>>>>> f" ++ [10]).
Proof. eexists. split; vm_compute; reflexivity. Qed.
Example C96_spelled : spelled decimal merge_command readme
  [Flag FStrikeout; Flag FDiff; Flag FCharacters; Operand (str "data/tale0"); Operand (str "data/tale1-reflowed"); Operand (str "data/tale2-edited")].
Proof.
  apply (spelled_says decimal merge_command (str "-sdc") _ [Flag FStrikeout; Flag FDiff; Flag FCharacters]
           [Operand (str "data/tale0"); Operand (str "data/tale1-reflowed"); Operand (str "data/tale2-edited")]).
  - apply (says_letters merge_command [FStrikeout; FDiff; FCharacters]); [discriminate|]. repeat constructor; discriminate.
  - repeat (apply spelled_operand; [apply plain_operand; discriminate|]). constructor.
Qed.
Example C97_example : get_filenames (str "test") (str "one") = (str "test/one.parent", str "test/one.1st", str "test/one.2nd").
Proof. vm_compute. reflexivity. Qed.
Example C98_asks : asks short_items (mkOptions true true false false true false false).
Proof. unfold asks. cbn. intuition (congruence || discriminate). Qed.
Example C98_example : gaspra_diff [10] decimal blank decimal blank (fun _ => None) (fun s => s)
    [str "--characters"; str "p"; str "i"] some_files
  = (some_files, Ran (put (str "x") [str "green4"] ++ put (str "a") [str "dark_red"] ++ put (str " b c") []) None).
Proof. vm_compute. reflexivity. Qed.
