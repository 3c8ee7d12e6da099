(** C132: a merge can be undone; any three corners of the square of edits give the fourth. *)
From Coq Require Import ZArith String.
From Verif Require Import Base Changesets SpecDiff Merge SpecMerge Tokenizers SpecTokenizers Markup SpecMarkup
  SpecTokens SpecSquare SquareProofs SquareTexts SquareUnits.

(** C132: two people edit a text, each in places of their own, and all tokens are different.
    Their merge has both edits, in either order; and from the merge, the text and what one
    of them wrote, what the other wrote can be had back by a merge, with the text as a branch. *)
Theorem C132_square_partial : forall T (E : Teq T), TeqOk T -> forall k (l : list (piece T)), separate l ->
  merge_token_sequence k (neither l) (by_first l) (by_second l) = Ok [DText (by_both l)] /\
  merge_token_sequence k (neither l) (by_second l) (by_first l) = Ok [DText (by_both l)] /\
  merge_token_sequence k (by_first l) (by_both l) (neither l) = Ok [DText (by_second l)] /\
  merge_token_sequence k (by_first l) (neither l) (by_both l) = Ok [DText (by_second l)] /\
  merge_token_sequence k (by_second l) (by_both l) (neither l) = Ok [DText (by_first l)] /\
  merge_token_sequence k (by_second l) (neither l) (by_both l) = Ok [DText (by_first l)] /\
  merge_token_sequence k (by_both l) (by_first l) (by_second l) = Ok [DText (neither l)] /\
  merge_token_sequence k (by_both l) (by_second l) (by_first l) = Ok [DText (neither l)].
Proof. exact @square. Qed.
(** C132: a diff of the merge with what the first wrote shows the edits of the second, as they
    were in the text. *)
Theorem C132_diff_partial : forall T (E : Teq T), TeqOk T -> forall l : list (piece T), separate l ->
  diff_token_sequences (neither l) (by_second l) = Ok (glued (shown false l)) /\
  diff_token_sequences (by_first l) (by_both l) = Ok (glued (shown true l)).
Proof. exact @sides. Qed.
(** C132: the same for what gaspra-merge merges, by characters, words or lines. *)
Theorem C132_texts_partial : forall re_w o n f s l, real_text n -> real_text f -> real_text s -> separate l ->
  units re_w (tokenizer_of o) (CStr n) (neither l) -> units re_w (tokenizer_of o) (CStr f) (by_first l) ->
  units re_w (tokenizer_of o) (CStr s) (by_second l) ->
  let b := concat (by_both l) in
  merge_result re_w o n f s = Ok [TText (CStr b)] /\ merge_result re_w o n s f = Ok [TText (CStr b)] /\
  merge_result re_w o f b n = Ok [TText (CStr s)] /\ merge_result re_w o f n b = Ok [TText (CStr s)] /\
  merge_result re_w o s b n = Ok [TText (CStr f)] /\ merge_result re_w o s n b = Ok [TText (CStr f)] /\
  merge_result re_w o b f s = Ok [TText (CStr n)] /\ merge_result re_w o b s f = Ok [TText (CStr n)].
Proof. exact square_files. Qed.

(** C132, full statement: whenever a merge has no conflicts, the branch that was merged can be
    taken out of it again.  It is false: an edit both have made is not kept when one of the
    branches is taken out, *)
Theorem C132_shared_refuted : exists k (p a b m : list nat),
  merge_token_sequence k p a b = Ok [DText m] /\ NoDup p /\ NoDup a /\ NoDup b /\
  exists x, merge_token_sequence k b m p = Ok [DText x] /\ x <> a.
Proof.
  exists KTuple, [1; 2; 3], [1; 9; 3], [1; 9; 3], [1; 9; 3]. split; [vm_compute; reflexivity|].
  split; [repeat constructor; cbn; lia|]. split; [repeat constructor; cbn; lia|]. split; [repeat constructor; cbn; lia|].
  eexists. split; [vm_compute; reflexivity|discriminate].
Qed.
(** and with repeated tokens, or edits next to each other, taking a branch out can be a
    conflict although putting it in was none. *)
Definition clash (r : res (list (ditem nat))) : bool :=
  match r with Ok d => existsb (fun i => match i with DChange _ _ => true | DText _ => false end) d | Err _ => false end.
Theorem C132_neighbours_refuted : exists k (p a b m : list nat),
  merge_token_sequence k p a b = Ok [DText m] /\ NoDup p /\ NoDup a /\ NoDup b /\
  clash (merge_token_sequence k b m p) = true.
Proof.
  exists KTuple, [1], [1; 2], [], [2]. split; [vm_compute; reflexivity|].
  split; [repeat constructor; cbn; lia|]. split; [repeat constructor; cbn; lia|]. split; [constructor|vm_compute; reflexivity].
Qed.
Theorem C132_repeats_refuted : exists k (p a b m : list nat),
  merge_token_sequence k p a b = Ok [DText m] /\ clash (merge_token_sequence k b m p) = true /\ ~ NoDup b /\ NoDup p /\ NoDup a.
Proof.
  exists KTuple, [1], [2], [1; 1; 1], [2; 1; 1]. split; [vm_compute; reflexivity|]. split; [vm_compute; reflexivity|].
  split; [|split; repeat constructor; cbn; lia]. intros H. inversion H as [|? ? N _]. apply N. now left.
Qed.

Print Assumptions C132_square_partial.
Print Assumptions C132_diff_partial.
Print Assumptions C132_texts_partial.
Print Assumptions C132_shared_refuted.
Print Assumptions C132_neighbours_refuted.
Print Assumptions C132_repeats_refuted.

(** ** Edits the theorems speak of *)
(** 1 2 3 4 5: the first replaces 2 by 7 8, the second drops 5 and puts 9 before 4 *)
Definition pieces_example : list (piece nat) := [Keep [1]; First [7; 8] [2]; Keep [3]; Second [9] []; Keep [4]; Second [] [5]].
Ltac kept := intros [|[|[|[|[|[|k]]]]]] x y A B; cbn in A, B; try discriminate;
  try (injection A as <-; injection B as <-; cbn; tauto); now destruct k.
Example C132_example : separate pieces_example /\ neither pieces_example = [1; 2; 3; 4; 5] /\
  by_first pieces_example = [1; 7; 8; 3; 4; 5] /\ by_second pieces_example = [1; 2; 3; 9; 4] /\ by_both pieces_example = [1; 7; 8; 3; 9; 4].
Proof.
  split; [|repeat split; reflexivity]. split; [kept|split].
  - repeat (apply Forall_cons; [try discriminate; intros [? ?]; discriminate|]). apply Forall_nil.
  - repeat constructor; cbn; lia.
Qed.
Example C132_diff_example :
  diff_token_sequences [1; 7; 8; 3; 4; 5] [1; 7; 8; 3; 9; 4] = Ok [DText [1; 7; 8; 3]; DChange [9] []; DText [4]; DChange [] [5]].
Proof. vm_compute. reflexivity. Qed.
(** "abcd", where the first has x for a and the second puts y before d *)
Definition text_pieces : list (piece (list Z)) :=
  [First [str "x"] [str "a"]; Keep [str "b"; str "c"]; Second [str "y"] []; Keep [str "d"]].
Definition by_characters : options := mkOptions false false false false false false false.
Example C132_texts_example : separate text_pieces /\
  units (fun _ => false) (tokenizer_of by_characters) (CStr (str "abcd")) (neither text_pieces) /\
  units (fun _ => false) (tokenizer_of by_characters) (CStr (str "xbcd")) (by_first text_pieces) /\
  units (fun _ => false) (tokenizer_of by_characters) (CStr (str "abcyd")) (by_second text_pieces) /\
  units (fun _ => false) (tokenizer_of by_characters) (CStr (str "xbcyd")) (by_both text_pieces).
Proof.
  split; [split; [kept|split]|].
  - repeat (apply Forall_cons; [try discriminate; intros [? ?]; discriminate|]). apply Forall_nil.
  - repeat constructor; cbn; intuition discriminate.
  - repeat split; repeat constructor.
Qed.
