(** C71: what gaspra-diff and gaspra-merge show on the console.  [sp] is what \s matches,
    [emoji] the table of emoji names, [normalize] the normal form of style names; [re_w]
    and [space] stand for the regular expression class and for isspace. *)
From Coq Require Import String Lia.
From Verif Require Import Base Tokenizers SpecTokenizers Lines SpecLines Markup SpecMarkup Rich SpecConsole ConsoleProofs.
Local Open Scope Z_scope.
Local Open Scope list_scope.

(** C71 for texts without backslash, control code and emoji: what is not red is the
    modified text, what is not green the original text. *)
Theorem C71_diff_partial : forall sp emoji normalize,
  normalize (str "green4") <> normalize (str "dark_red") -> normalize (str "green4") <> [] -> normalize (str "dark_red") <> [] ->
  forall re_w space o original modified n0 n1,
  o_output o = false -> o_git o = false -> o_strikeout o = false ->
  real_text original -> real_text modified -> harmless sp emoji original -> harmless sp emoji modified ->
  let tail := if o_show_lines o then last_newline modified original else [] in
  exists cells, on_console sp emoji normalize (snd (diff_cli re_w space o original modified n0 n1 initial_styles)) = (cells, None) /\
    outside (normalize (str "dark_red")) cells = modified ++ tail /\
    outside (normalize (str "green4")) cells = original ++ tail /\
    Forall (fun c => In (outermost c) [[]; normalize (str "green4"); normalize (str "dark_red")]) cells.
Proof. exact diff_console. Qed.
Theorem C71_merge_partial : forall sp emoji normalize,
  normalize (str "green4") <> normalize (str "dark_red") -> normalize (str "green4") <> [] -> normalize (str "dark_red") <> [] ->
  forall re_w space o p c t pn cn tn m,
  o_output o = false -> o_git o = false -> o_diff o = false ->
  real_text p -> real_text c -> real_text t -> merge_result re_w o p c t = Ok m ->
  harmless sp emoji (text_after m) -> harmless sp emoji (text_before m) ->
  exists cells tail, on_console sp emoji normalize (snd (merge_cli re_w space o p c t pn cn tn initial_styles)) = (cells, None) /\
    (tail = [] \/ o_show_lines o = true /\ tail = [10]) /\
    outside (normalize (str "dark_red")) cells = text_after m ++ tail /\
    outside (normalize (str "green4")) cells = text_before m ++ tail /\
    Forall (fun c => In (outermost c) [[]; normalize (str "green4"); normalize (str "dark_red")]) cells.
Proof. exact merge_console. Qed.
(** C71 for one unchanged piece of text: backslashes do no harm except directly before
    something like a tag. *)
Theorem C71_piece_partial : forall sp emoji normalize s, ~ masked s -> no_control s -> ~ has_emoji sp emoji s ->
  render sp emoji normalize (rich_escape s) = Ok (put s []).
Proof. exact plain_console. Qed.

(** C71 in general: text is taken for a tag and disappears; the command fails; the markup
    is shown instead of the text; emoji codes are replaced; control codes disappear. *)
Theorem C71_tag_refuted : exists s cells, no_control s /\ console_diff s s = (cells, None) /\ map fst cells <> s.
Proof. exact tag_lost. Qed.
Theorem C71_error_refuted : exists s, no_control s /\ snd (console_diff s s) = Some MarkupError.
Proof. exact closing_fails. Qed.
Theorem C71_suffix_refuted : exists s t cells, no_control s /\ no_control t /\ console_diff s t = (cells, None) /\
  t = s ++ str "\" /\ map fst cells = s ++ str "[/]".
Proof. exact suffix_shown. Qed.
Theorem C71_emoji_refuted : exists s cells, no_control s /\ ~ In 92 s /\ console_diff s s = (cells, None) /\ map fst cells <> s.
Proof. exact emoji_replaced. Qed.
Theorem C71_control_refuted : exists s cells, ~ In 92 s /\ ~ In 58 s /\ console_diff s s = (cells, None) /\ map fst cells <> s.
Proof. exact control_lost. Qed.

Print Assumptions C71_diff_partial.
Print Assumptions C71_merge_partial.
Print Assumptions C71_piece_partial.
Print Assumptions C71_tag_refuted.
Print Assumptions C71_error_refuted.
Print Assumptions C71_suffix_refuted.
Print Assumptions C71_emoji_refuted.
Print Assumptions C71_control_refuted.

(** Concrete cases. *)
Example C71_diff_example : console_diff (str "x[b]1") (str "x[b]2[/]")
  = (put (str "x[b]") [] ++ put (str "2[/]") [str "green4"] ++ put (str "1") [str "dark_red"], None).
Proof. vm_compute. reflexivity. Qed.
Example C71_lines_example : on_console (fun c => c =? 32) small_table (fun s => s)
    (snd (diff_cli (fun _ => false) (fun c => c =? 32) (mkOptions false false false true false false false)
            (str "old[1]" ++ [10]) (str "new[1]" ++ [10]) (str "a") (str "b") initial_styles))
  = (put (str "new") [str "light_green"; str "green4"] ++ put (str "[1]" ++ [10]) [str "green4"] ++
     put (str "old") [str "pink1"; str "dark_red"] ++ put (str "[1]" ++ [10]) [str "dark_red"], None).
Proof. vm_compute. reflexivity. Qed.
Example C71_harmless_example : harmless (fun c => c =? 32) small_table (str "[b]: a [/] :x").
Proof.
  split; [cbn; lia|]. split; [repeat (apply Forall_cons; [cbn; lia|]); apply Forall_nil|].
  apply no_emoji_check. vm_compute. reflexivity.
Qed.
Example C71_masked_example : ~ masked (str "\[1] \\ [a] \").
Proof. apply masked_check. vm_compute. reflexivity. Qed.
