(** C56, C57, C62, C63: what gaspra-diff and gaspra-merge write.  [re_w] and [space] stand
    for the regular expression class and for isspace; nothing depends on what they are. *)
From Coq Require Import String.
From Verif Require Import Base Changesets SpecDiff Merge Tokenizers SpecTokenizers Lines SpecLines Markup SpecMarkup
  MarkupProofs MarkupCli MarkupStrike.
Local Open Scope Z_scope.
Local Open Scope list_scope.

(** C56 for gaspra-diff -g -o, with any tokenizer: the layout, and what is left when the
    markers are stripped. *)
Theorem C56_diff_git : forall re_w space o original modified original_name modified_name,
  o_git o = true -> o_output o = true -> o_strikeout o = false ->
  real_text original -> real_text modified ->
  exists out d, snd (diff_cli re_w space o original modified original_name modified_name initial_styles) = (out, None) /\
    concat out = git_text modified_name original_name d /\
    Forall whole_item d /\ no_change_twice d /\
    let tail := last_newline modified original in
    into_text d = modified ++ tail /\ from_text d = original ++ tail /\
    (one_line original_name -> one_line modified_name ->
     no_markers (modified ++ tail) -> no_markers (original ++ tail) ->
     strip_conflicts true (concat out) = Some (modified ++ tail) /\
     strip_conflicts false (concat out) = Some (original ++ tail)).
Proof. exact diff_git. Qed.
(** C56 for gaspra-merge -g -o *)
Theorem C56_merge_git : forall re_w space o p c t pn cn tn,
  o_git o = true -> o_output o = true -> o_diff o = false ->
  real_text p -> real_text c -> real_text t ->
  exists out d m tail, snd (merge_cli re_w space o p c t pn cn tn initial_styles) = (out, None) /\
    concat out = git_text cn tn d /\
    Forall whole_item d /\ no_change_twice d /\
    merge_result re_w o p c t = Ok m /\ (tail = [] \/ tail = [10]) /\
    into_text d = text_after m ++ tail /\ from_text d = text_before m ++ tail /\
    (one_line cn -> one_line tn -> no_markers (text_after m ++ tail) -> no_markers (text_before m ++ tail) ->
     strip_conflicts true (concat out) = Some (text_after m ++ tail) /\
     strip_conflicts false (concat out) = Some (text_before m ++ tail)).
Proof. exact merge_git. Qed.

(** What markup_changes prints in this style when it is called without the names, with
    them, and with a header. *)
Theorem C56_names : forall (n0 n1 header : option (list Z)) d,
  Forall (fun i => match i with OStr _ => True | OChange a b => a <> [] /\ b <> [] end) d ->
  exists out, markup_changes (fun s => s) (line_stream d) GIT_MARKUP_LEVEL0 (Some PLAIN_LEVEL1) n0 n1 header = (out, None) /\
    concat out = (match header with Some (c :: h) => [10] ++ c :: h | _ => [] end) ++
      git_text (match n0 with Some s => s | None => str "None" end) (match n1 with Some s => s | None => str "None" end) d.
Proof. exact git_changes. Qed.
Example C56_names_example :
  concat (fst (markup_changes (fun s => s) (line_stream [OStr (str "a"); OChange [LStr (str "b")] [LStr (str "c")]])
    GIT_MARKUP_LEVEL0 (Some PLAIN_LEVEL1) None (Some (str "x")) (Some (str "title")))) =
  [10] ++ str "titlea<<<<<<< None" ++ [10] ++ str "b=======" ++ [10] ++ str "c>>>>>>> x" ++ [10].
Proof. vm_compute. reflexivity. Qed.

(** C57, full statement: --strikeout renders every diff.  It is false: *)
Theorem C57_strikeout_refuted : exists o original modified,
  real_text original /\ real_text modified /\ o_strikeout o = true /\
  snd (snd (diff_cli (fun _ => false) (fun _ => false) o original modified [] [] initial_styles)) = Some TypeError.
Proof.
  exists (mkOptions false false false false false true false), [97], [98].
  repeat split; try (repeat constructor; discriminate); vm_compute; reflexivity.
Qed.
(** Exactly: it raises TypeError as soon as something of the original is to be shown. *)
Theorem C57_strikeout_partial : forall space re_w o original modified original_name modified_name d,
  o_strikeout o = true -> real_text original -> real_text modified ->
  snd (diff re_w (tokenizer_of o) new_tokenizer (CStr original) (CStr modified)) = Ok d ->
  snd (snd (diff_cli re_w space o original modified original_name modified_name initial_styles)) =
  if existsb (removes o) d then Some TypeError else None.
Proof. exact diff_strikeout. Qed.
(** Without the option nothing raises. *)
Theorem C57_diff_renders_partial : forall space re_w o original modified original_name modified_name,
  o_strikeout o = false -> real_text original -> real_text modified ->
  snd (snd (diff_cli re_w space o original modified original_name modified_name initial_styles)) = None.
Proof. exact diff_no_strikeout. Qed.
Theorem C57_merge_renders_partial : forall space re_w o p c t pn cn tn,
  o_strikeout o = false -> real_text p -> real_text c -> real_text t ->
  snd (snd (merge_cli re_w space o p c t pn cn tn initial_styles)) = None.
Proof. exact merge_no_strikeout. Qed.
Theorem C57_merge_idle_partial : forall space re_w o p c t pn cn tn,
  o_diff o = false -> real_text p -> real_text c -> real_text t ->
  snd (snd (merge_cli re_w space o p c t pn cn tn initial_styles)) = None.
Proof. exact merge_no_diff. Qed.
(** With --strikeout and --diff gaspra-merge raises exactly if one of the two diffs, or the
    merge, has something to strike out. *)
Theorem C57_merge_strikeout_partial : forall space re_w o p c t pn cn tn dc dt m,
  o_strikeout o = true -> o_diff o = true -> real_text p -> real_text c -> real_text t ->
  snd (diff re_w (tokenizer_of o) new_tokenizer (CStr p) (CStr c)) = Ok dc ->
  snd (diff re_w (tokenizer_of o) new_tokenizer (CStr p) (CStr t)) = Ok dt ->
  merge_result re_w o p c t = Ok m ->
  snd (snd (merge_cli re_w space o p c t pn cn tn initial_styles)) =
  if existsb (removes o) (dc ++ dt ++ m) then Some TypeError else None.
Proof. exact merge_strikeout. Qed.
(** The option also stays in force where it is switched off: the diffs of this merge have
    nothing to strike out, and the merge, rendered without, raises. *)
Theorem C57_sticky_refuted : exists o p c t,
  real_text p /\ real_text c /\ real_text t /\
  (forall x, x = c \/ x = t ->
     snd (snd (diff_cli (fun _ => false) (fun _ => false) o p x [] [] initial_styles)) = None) /\
  snd (snd (merge_cli (fun _ => false) (fun _ => false) o p c t [] [] [] initial_styles)) = Some TypeError.
Proof.
  exists (mkOptions true false false false false true true), [], [97], [98].
  split; [repeat constructor|]. split; [repeat constructor; discriminate|]. split; [repeat constructor; discriminate|].
  split; [intros x [->| ->]; vm_compute; reflexivity|vm_compute; reflexivity].
Qed.

(** C62, full statement: the output of gaspra-merge -d -g is well formed too.  It is false:
    no newline follows the header, and the first marker is not at the start of a line. *)
Theorem C62_diff_header_refuted : exists o p c t cn tn out,
  o_git o = true /\ o_output o = true /\ o_diff o = true /\
  real_text p /\ real_text c /\ real_text t /\ one_line cn /\ one_line tn /\
  snd (merge_cli (fun _ => false) (fun _ => false) o p c t (str "p") cn tn initial_styles) = (out, None) /\
  strip_conflicts true (concat out) = None /\
  firstn 15 (concat out) = [10] ++ str "c<<<<<<< c" ++ [10] ++ str "b" ++ [10] ++ str "=".
Proof.
  exists (mkOptions true false false false true false true), (str "a" ++ [10]), (str "b" ++ [10]), (str "b" ++ [10]),
    (str "c"), (str "t").
  eexists. do 3 (split; [reflexivity|]). do 3 (split; [repeat constructor; discriminate|]).
  do 2 (split; [unfold one_line; vm_compute; intuition discriminate|]).
  split; [vm_compute; reflexivity|]. split; vm_compute; reflexivity.
Qed.

(** C63: a merge without conflicts is written as it is; in particular the other text when
    one branch did not change anything, and the common text of equal branches. *)
Theorem C63_clean_merge : forall space re_w o p c t pn cn tn m,
  o_output o = true -> o_diff o = false -> o_show_lines o = false -> o_git o = false ->
  real_text p -> real_text c -> real_text t ->
  merge_result re_w o p c t = Ok m -> Forall (fun i => exists s, i = TText s) m ->
  exists out, snd (merge_cli re_w space o p c t pn cn tn initial_styles) = (out, None) /\ concat out = text_after m.
Proof. exact merge_prints. Qed.
Theorem C63_unchanged_branch : forall space re_w o p c t pn cn tn,
  o_output o = true -> o_diff o = false -> o_show_lines o = false -> o_git o = false ->
  real_text p -> real_text c -> real_text t ->
  exists out, snd (merge_cli re_w space o p c t pn cn tn initial_styles) = (out, None) /\
    (c = p -> concat out = t) /\ (t = p \/ t = c -> concat out = c).
Proof. exact merge_prints_one. Qed.

Print Assumptions C56_diff_git.
Print Assumptions C56_merge_git.
Print Assumptions C56_names.
Print Assumptions C57_strikeout_refuted.
Print Assumptions C57_strikeout_partial.
Print Assumptions C57_diff_renders_partial.
Print Assumptions C57_merge_renders_partial.
Print Assumptions C57_merge_idle_partial.
Print Assumptions C57_merge_strikeout_partial.
Print Assumptions C57_sticky_refuted.
Print Assumptions C62_diff_header_refuted.
Print Assumptions C63_clean_merge.
Print Assumptions C63_unchanged_branch.

(** Concrete cases. *)
Definition git_options : options := mkOptions true false true false true false false.
Definition spaces (c : Z) : bool := (c =? 32) || (c =? 10).
Definition nl : list Z := [10].
Definition old_text : list Z := str "a" ++ nl ++ str "b" ++ nl ++ str "c".
Definition new_text : list Z := str "a" ++ nl ++ str "x" ++ nl ++ str "c".
Example C56_diff_example :
  concat (fst (snd (diff_cli (fun _ => false) spaces git_options old_text new_text (str "old") (str "new") initial_styles)))
  = str "a" ++ nl ++ str "<<<<<<< new" ++ nl ++ str "x" ++ nl ++ str "=======" ++ nl ++ str "b" ++ nl ++
    str ">>>>>>> old" ++ nl ++ str "c" ++ nl.
Proof. vm_compute. reflexivity. Qed.
Example C56_hypotheses : real_text old_text /\ real_text new_text /\ one_line (str "old") /\
  no_markers (new_text ++ last_newline new_text old_text) /\ no_markers (old_text ++ last_newline new_text old_text).
Proof.
  do 2 (split; [repeat constructor; discriminate|]).
  split; [unfold one_line; vm_compute; intuition discriminate|]. split; repeat constructor.
Qed.
Example C56_merge_example :
  concat (fst (snd (merge_cli (fun _ => false) spaces git_options old_text new_text (str "a" ++ nl ++ str "y" ++ nl ++ str "c")
     (str "p") (str "mine") (str "theirs") initial_styles)))
  = str "a" ++ nl ++ str "<<<<<<< mine" ++ nl ++ str "x" ++ nl ++ str "=======" ++ nl ++ str "y" ++ nl ++
    str ">>>>>>> theirs" ++ nl ++ str "c" ++ nl.
Proof. vm_compute. reflexivity. Qed.
(** an insertion is not struck out, so --strikeout works on it *)
Example C57_insertion : exists d,
  snd (diff (fun _ => false) KChar new_tokenizer (CStr (str "ac")) (CStr (str "abc"))) = Ok d /\
  existsb (removes (mkOptions true false false false false true false)) d = false.
Proof. eexists; split; vm_compute; reflexivity. Qed.
Example C57_merge_example : exists dc dt m,
  snd (diff (fun _ => false) KChar new_tokenizer (CStr []) (CStr [97])) = Ok dc /\
  snd (diff (fun _ => false) KChar new_tokenizer (CStr []) (CStr [98])) = Ok dt /\
  merge_result (fun _ => false) (mkOptions true false false false false true true) [] [97] [98] = Ok m /\
  existsb (removes (mkOptions true false false false false true true)) (dc ++ dt) = false /\
  existsb (removes (mkOptions true false false false false true true)) m = true.
Proof. do 3 eexists. repeat split; vm_compute; reflexivity. Qed.
Example C63_example : exists m,
  merge_result (fun _ => false) (mkOptions true false false false false false false) (str "abc") (str "xbc") (str "aby") = Ok m /\
  m = [TText (CStr (str "xby"))].
Proof. eexists; split; vm_compute; reflexivity. Qed.
