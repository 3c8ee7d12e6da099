(** Property C75: what the tokens are, and that diffs and merges are made of whole tokens.
    [re_w] stands for the character class [\w] of Python's regular expressions; nothing
    depends on what it is. *)
From Coq Require Import ZArith.
From Verif Require Import Base Changesets SpecDiff Merge SpecMerge Tokenizers SpecTokenizers SpecLines Markup SpecMarkup
  SpecTokens TokensProofs.
Local Open Scope Z_scope.

(** ** C75  Lines, words and characters are never split *)
(** Every text has exactly one list of tokens. *)
Theorem C75_units_exist : forall re_w k c, encodable k c -> exists ts, units re_w k c ts.
Proof. exact units_exist. Qed.
Theorem C75_units_unique : forall re_w k c ts ts', units re_w k c ts -> units re_w k c ts' -> ts = ts'.
Proof. exact units_unique. Qed.
(** encode gives one number for each of them. *)
Theorem C75_encode : forall re_w k before c,
  Forall real_contents before -> Forall (fun x => kind_of x = kind_of c) before -> encodable k c ->
  exists st' toks ts, encode re_w k (after re_w k new_tokenizer before) c = (st', Ok toks) /\ units re_w k c ts /\
    Forall2 (fun tok t => decode k st' [tok] = Ok (mk (kind_of c) t)) toks ts.
Proof. exact encode_units. Qed.
(** A diff is the diff of the two lists of tokens, its pieces are made of tokens, and no token is on both sides of a Change. *)
Theorem C75_diff : forall re_w k before o m,
  Forall real_contents before -> Forall (fun x => kind_of x = kind_of o) before ->
  kind_of m = kind_of o -> encodable k o -> encodable k m ->
  exists st' D tso tsm, diff re_w k (after re_w k new_tokenizer before) o m = (st', Ok (map (pieces (kind_of o)) D)) /\
    units re_w k o tso /\ units re_w k m tsm /\ diff_token_sequences tso tsm = Ok D /\
    diff_before D = tso /\ diff_after D = tsm /\ normal_diff D.
Proof. exact diff_units. Qed.
(** So a diff never cuts a line, a word or an encoded character. *)
Theorem C75_lines_whole : forall re_w before o m,
  Forall real_contents before -> Forall (fun x => kind_of x = kind_of o) before ->
  kind_of m = kind_of o -> encodable KLine o -> encodable KLine m ->
  exists st' d, diff re_w KLine (after re_w KLine new_tokenizer before) o m = (st', Ok d) /\
    forall d1 d2, d = d1 ++ d2 ->
      (whole_lines (text_before d1) \/ text_before d2 = []) /\
      (whole_lines (text_after d1) \/ text_after d2 = []).
Proof. exact diff_lines_whole. Qed.
Theorem C75_words_whole : forall re_w before o m,
  Forall real_contents before -> Forall (fun x => kind_of x = SStr) before -> real_text o -> real_text m ->
  exists st' d, diff re_w KSymbol (after re_w KSymbol new_tokenizer before) (CStr o) (CStr m) = (st', Ok d) /\
    forall d1 d2 x c c' y, d = d1 ++ d2 ->
      (text_before d1 = x ++ [c] -> text_before d2 = c' :: y -> ~ (word_char re_w c /\ word_char re_w c')) /\
      (text_after d1 = x ++ [c] -> text_after d2 = c' :: y -> ~ (word_char re_w c /\ word_char re_w c')).
Proof. exact diff_words_whole. Qed.
Theorem C75_chars_whole : forall re_w before o m,
  Forall real_contents before -> Forall (fun x => kind_of x = SBytes) before ->
  encodable KChar (CBytes o) -> encodable KChar (CBytes m) ->
  exists st' d, diff re_w KChar (after re_w KChar new_tokenizer before) (CBytes o) (CBytes m) = (st', Ok d) /\
    forall d1 d2, d = d1 ++ d2 -> is_utf8 (text_before d1) /\ is_utf8 (text_after d1).
Proof. exact diff_chars_whole. Qed.
(** The merge of gaspra-merge is the merge of the three lists of tokens, and every token in
    it is one of a branch. *)
Theorem C75_merge : forall re_w o p c t, real_text p -> real_text c -> real_text t ->
  exists M tp tc tt, merge_result re_w o p c t = Ok (map (pieces SStr) M) /\
    units re_w (tokenizer_of o) (CStr p) tp /\ units re_w (tokenizer_of o) (CStr c) tc /\
    units re_w (tokenizer_of o) (CStr t) tt /\
    merge_token_sequence KTuple tp tc tt = Ok M /\
    (forall x, In x (tokens M) -> In x tc \/ In x tt).
Proof. exact merge_units. Qed.

Print Assumptions C75_units_exist.
Print Assumptions C75_units_unique.
Print Assumptions C75_encode.
Print Assumptions C75_diff.
Print Assumptions C75_lines_whole.
Print Assumptions C75_words_whole.
Print Assumptions C75_chars_whole.
Print Assumptions C75_merge.

(** "a-b c" is the word a-b, a space and the word c *)
Definition letter (c : Z) : bool := (97 <=? c) && (c <=? 122).
Example C75_example_words : units letter KSymbol (CStr [97; 45; 98; 32; 99]) [[97; 45; 98]; [32]; [99]].
Proof.
  split; [reflexivity|]. split.
  - constructor; [|constructor; [|constructor; [|constructor]]].
    + left. split; [discriminate|]. constructor; [now left|]. constructor; [right; now right|]. constructor; [now left|constructor].
    + right. exists 32. split; [reflexivity|]. intros [H|[H|H]]; discriminate.
    + left. split; [discriminate|]. constructor; [now left|constructor].
  - intros [|u [|v [|w x]]] t t' y H [W W']; cbn in H; inversion H; subst; try (destruct x; discriminate).
    + destruct W' as [_ W']. inversion W' as [|? ? [X|[X|X]] _]; discriminate.
    + destruct W as [_ W]. inversion W as [|? ? [X|[X|X]] _]; discriminate.
Qed.
(** changing b to d changes the whole word *)
Example C75_example_diff :
  snd (diff letter KSymbol new_tokenizer (CStr [97; 45; 98; 32; 99]) (CStr [97; 45; 100; 32; 99])) =
  Ok [TChange (CStr [97; 45; 100]) (CStr [97; 45; 98]); TText (CStr [32; 99])].
Proof. vm_compute. reflexivity. Qed.
(** "a\nb": the second line has no newline *)
Example C75_example_lines : units letter KLine (CStr [97; 10; 98]) [[97; 10]; [98]].
Proof.
  split; [reflexivity|]. exists [[97; 10]], [98]. split; [reflexivity|]. split; [intros [H|[]]; discriminate|].
  constructor; [|constructor]. exists [97]. split; [intros [H|[]]; discriminate|reflexivity].
Qed.
