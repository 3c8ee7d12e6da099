(** C122: [decode_and_line_diff_changes] of tokenizers.py. *)
From Verif Require Import Base Changesets SpecDiff Tokenizers SpecTokenizers Lines SpecLines Markup SpecMarkup LinesKinds SpecLinesKinds LinesKindsProofs.
Local Open Scope Z_scope.

(** C122.  Full statement: whatever the tokenizer and the two texts, str or bytes, the diff
    of their tokens becomes a diff by whole lines, and its two sides are the two texts
    (up to a last newline).  This is so for str. *)
Theorem C122_lines_partial : forall space re_w k original modified, real_text original -> real_text modified -> exists st l d,
  token_diff re_w k (CStr original) (CStr modified) = (st, Ok l) /\ decode_and_line_diff_changes space k st l = Ok d /\
  let tail := last_newline modified original in
  into_text (map bare d) = modified ++ tail /\ from_text (map bare d) = original ++ tail /\
  Forall whole_item (map bare d) /\ Forall all_str d.
Proof. exact str_lines. Qed.
(** For bytes what the two have in common is left out, wherever it is: all that comes is
    at most one Change with the parts that differ, closed by a newline. *)
Theorem C122_bytes : forall space re_w k original modified, encodable k (CBytes original) -> encodable k (CBytes modified) ->
  exists st l d c,
  token_diff re_w k (CBytes original) (CBytes modified) = (st, Ok l) /\ decode_and_line_diff_changes space k st l = Ok d /\
  snd (diff re_w k new_tokenizer (CBytes original) (CBytes modified)) = Ok c /\ (length d <= 1)%nat /\
  let tail := match new_parts c, old_parts c with [], [] => [] | _, _ => [10] end in
  into_text (map bare d) = new_parts c ++ tail /\ from_text (map bare d) = old_parts c ++ tail.
Proof. exact bytes_lines. Qed.
(** The same bytes twice: nothing comes, or one empty str when they are empty. *)
Theorem C122_bytes_equal : forall space re_w k b, encodable k (CBytes b) -> exists st l,
  token_diff re_w k (CBytes b) (CBytes b) = (st, Ok l) /\
  decode_and_line_diff_changes space k st l = Ok (match b with [] => [KText []] | _ => [] end).
Proof. exact bytes_equal. Qed.
(** b"a\nb" and b"a\nc": the first line is lost; with b"a\nb" twice nothing is left *)
Theorem C122_bytes_refuted : exists k original modified st l d,
  token_diff (fun _ => true) k (CBytes original) (CBytes modified) = (st, Ok l) /\
  decode_and_line_diff_changes (fun c => c =? 32) k st l = Ok d /\
  forall tail, into_text (map bare d) <> modified ++ tail.
Proof. exists KChar, [97;10;98], [97;10;99]. do 3 eexists. split; [vm_compute; reflexivity|]. split; [vm_compute; reflexivity|]. intros tail. vm_compute. discriminate. Qed.
Print Assumptions C122_lines_partial.
Print Assumptions C122_bytes.
Print Assumptions C122_bytes_equal.
Print Assumptions C122_bytes_refuted.

Example C122_example :
  let '(st, l) := token_diff (fun c => 97 <=? c) KSymbol (CStr [97;32;98;10;99]) (CStr [97;32;100;10;99]) in
  (let* l := l in decode_and_line_diff_changes (fun c => c =? 32) KSymbol st l) =
  Ok [KLines [KStr [97;32]; KChange (CStr [100]) (CStr []); KStr [10]] [KStr [97;32]; KChange (CStr []) (CStr [98]); KStr [10]]; KText [99;10]].
Proof. vm_compute. reflexivity. Qed.
Example C122_example_bytes : encodable KNull (CBytes [97;32;98;10;99]) /\
  let '(st, l) := token_diff (fun c => 97 <=? c) KNull (CBytes [97;32;98;10;99]) (CBytes [97;32;100;10;99]) in
  (let* l := l in decode_and_line_diff_changes (fun c => c =? 32) KNull st l) =
  Ok [KLines [KChange (CBytes [100]) (CStr []); KStr [10]] [KChange (CStr []) (CBytes [98]); KStr [10]]].
Proof. split; [split; [repeat constructor; discriminate|exact I]|vm_compute; reflexivity]. Qed.
Example C122_example_equal :
  let '(st, l) := token_diff (fun c => 97 <=? c) KNull (CBytes [97]) (CBytes [97]) in
  (let* l := l in decode_and_line_diff_changes (fun c => c =? 32) KNull st l) = Ok [].
Proof. vm_compute. reflexivity. Qed.
(** a line tokenizer has one empty line for empty bytes *)
Example C122_example_empty : encodable KLine (CBytes []) /\
  let '(st, l) := token_diff (fun c => 97 <=? c) KLine (CBytes []) (CBytes []) in
  l = Ok [DText [0]] /\ (let* l := l in decode_and_line_diff_changes (fun c => c =? 32) KLine st l) = Ok [KText []].
Proof. split; [split; [constructor|exact I]|vm_compute; split; reflexivity]. Qed.
