(** Theorems C87 and C88: diffs of UTF-8 bytes, and diffs character by character. *)
From Coq Require Import ZArith.
From Verif Require Import Base Changesets Merge Tokenizers SpecTokenizers Utf8Proofs TokenizersProofs Markup SpecMarkup
  SpecBytes BytesProofs.
Local Open Scope Z_scope.

(** C87: with any tokenizer but the default one the diff of the UTF-8 encodings of two
    texts is the diff of the texts, its pieces encoded; every piece is the encoding of
    a text, so no character is torn apart. *)
Theorem C87_diff_utf8_partial : forall re_w k before0 before1 o m,
  k <> KNull -> utf8_text o -> utf8_text m ->
  Forall real_contents before0 -> Forall (fun x => kind_of x = SStr) before0 ->
  Forall real_contents before1 -> Forall (fun x => kind_of x = SBytes) before1 ->
  exists st0 st1 d,
    diff re_w k (after re_w k new_tokenizer before0) o m = (st0, Ok d) /\
    diff re_w k (after re_w k new_tokenizer before1) (as_utf8 o) (as_utf8 m) = (st1, Ok (map item_as_utf8 d)) /\
    utf8_pieces d.
Proof. exact diff_utf8. Qed.

(** without a tokenizer a character of the two is torn apart: the diff of "é" and "è"
    starts with their common first byte *)
Theorem C87_diff_utf8_refuted : exists o m d0 d1 b rest, utf8_text o /\ utf8_text m /\
  (forall re_w, snd (diff re_w KNull new_tokenizer o m) = Ok d0) /\
  (forall re_w, snd (diff re_w KNull new_tokenizer (as_utf8 o) (as_utf8 m)) = Ok d1) /\
  d1 <> map item_as_utf8 d0 /\ d1 = TText (CBytes b) :: rest /\ ~ is_utf8 b.
Proof.
  exists (CStr [233]), (CStr [232]), [TChange (CStr [232]) (CStr [233])].
  exists [TText (CBytes [195]); TChange (CBytes [168]) (CBytes [169])], [195].
  exists [TChange (CBytes [168]) (CBytes [169])].
  split; [repeat constructor; discriminate || (intros [H _]; now apply H)|].
  split; [repeat constructor; discriminate || (intros [H _]; now apply H)|].
  split; [reflexivity|]. split; [reflexivity|]. split; [discriminate|]. split; [reflexivity|].
  intros H; apply is_utf8_decode in H as [l H]; discriminate.
Qed.

(** C88: CharTokenizer and no tokenizer give the same diff of two strs, and of two
    bytes objects with ASCII contents; *)
Theorem C88_diff_char_null : forall re_w before0 before1 o m,
  real_contents o -> real_contents m -> kind_of m = kind_of o ->
  (kind_of o = SBytes -> ascii (raw o) /\ ascii (raw m)) ->
  Forall real_contents before0 -> Forall (fun x => kind_of x = kind_of o) before0 ->
  Forall real_contents before1 -> Forall (fun x => kind_of x = kind_of o) before1 ->
  snd (diff re_w KChar (after re_w KChar new_tokenizer before0) o m) =
  snd (diff re_w KNull (after re_w KNull new_tokenizer before1) o m).
Proof. exact diff_char_null. Qed.
(** gaspra-merge -c shows the merge that merge_token_sequence makes of the three strs *)
Theorem C88_merge_char_null : forall re_w o p c t,
  o_words o = false -> o_lines o = false -> real_text p -> real_text c -> real_text t ->
  exists m, merge_token_sequence KStr p c t = Ok m /\
    merge_result re_w o p c t = Ok (map as_str_item m).
Proof. exact merge_char_null. Qed.
(** but not of other bytes *)
Theorem C88_other_bytes_differ : exists o m, encodable KChar o /\ encodable KChar m /\
  kind_of o = kind_of m /\ forall re_w,
  snd (diff re_w KChar new_tokenizer o m) <> snd (diff re_w KNull new_tokenizer o m).
Proof.
  exists (CBytes [195; 169]), (CBytes [195; 168]).
  split; [split; [repeat constructor; discriminate || reflexivity|]; apply is_utf8_decode; eexists; reflexivity|].
  split; [split; [repeat constructor; discriminate || reflexivity|]; apply is_utf8_decode; eexists; reflexivity|].
  split; [reflexivity|]. intros re_w; vm_compute; discriminate.
Qed.

(** "é\nb" and "é\nc": the hypotheses of C87 hold, the diffs are these *)
Example C87_used : utf8_text (CStr [233; 10; 98]) /\ utf8_text (CStr [233; 10; 99]) /\
  forall re_w,
  snd (diff re_w KLine new_tokenizer (CStr [233; 10; 98]) (CStr [233; 10; 99])) =
    Ok [TText (CStr [233; 10]); TChange (CStr [99]) (CStr [98])] /\
  snd (diff re_w KLine new_tokenizer (CBytes [195; 169; 10; 98]) (CBytes [195; 169; 10; 99])) =
    Ok [TText (CBytes [195; 169; 10]); TChange (CBytes [99]) (CBytes [98])].
Proof.
  split; [repeat constructor; discriminate || (intros [H _]; now apply H)|].
  split; [repeat constructor; discriminate || (intros [H _]; now apply H)|].
  intros re_w; split; reflexivity.
Qed.
Example C88_used : ascii (raw (CBytes [97; 98])) /\ forall re_w,
  snd (diff re_w KChar new_tokenizer (CBytes [97; 98]) (CBytes [97; 99])) =
    Ok [TText (CBytes [97]); TChange (CBytes [99]) (CBytes [98])] /\
  snd (diff re_w KNull new_tokenizer (CBytes [97; 98]) (CBytes [97; 99])) =
    Ok [TText (CBytes [97]); TChange (CBytes [99]) (CBytes [98])].
Proof. split; [repeat constructor; discriminate || reflexivity|]. intros; split; reflexivity. Qed.

Print Assumptions C87_diff_utf8_partial.
Print Assumptions C87_diff_utf8_refuted.
Print Assumptions C88_diff_char_null.
Print Assumptions C88_merge_char_null.
Print Assumptions C88_other_bytes_differ.
