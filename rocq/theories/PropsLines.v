(** C52-C55: line diffs.  [space] stands for the builtin isspace on characters; nothing
    depends on what it is. *)
From Verif Require Import Base Changesets SpecDiff Lines SpecLines LinesProofs LinesMore.
Local Open Scope Z_scope.

(** C52: the two texts, with one newline more at the end of both iff one of them does not
    end with a newline. *)
Theorem C52_texts : forall space l, alternating (visible l) ->
  exists d, to_line_diff space l = Ok d /\
  let tail := last_newline (diff_after l) (diff_before l) in
  into_text d = diff_after l ++ tail /\ from_text d = diff_before l ++ tail.
Proof. exact line_diff_last. Qed.
(** When only strings are never next to each other (Changes may be) the newline may also
    be added without need. *)
Theorem C52_texts_changes : forall space l, no_text_twice (visible l) ->
  exists d tail, to_line_diff space l = Ok d /\ (tail = [] \/ tail = [10]) /\
  into_text d = diff_after l ++ tail /\ from_text d = diff_before l ++ tail.
Proof. exact line_diff_texts. Qed.
(** C53: whole lines, for every stream; and nothing raises. *)
Theorem C53_whole_lines : forall space l, exists d, to_line_diff space l = Ok d /\ Forall whole_item d.
Proof. exact line_diff_whole. Qed.
(** The two sides of every Change have items (the renderer tests this). *)
Theorem C53_sides : forall space l d, to_line_diff space l = Ok d -> sides_present d.
Proof. exact line_diff_sides. Qed.

(** C54, full statement: as C52 for every stream.  It is false when two strings follow
    each other: "a", "b\nc" becomes "b\n", "ac\n". *)
Theorem C54_any_stream_refuted : exists l d, to_line_diff (fun _ => false) l = Ok d /\
  forall tail, into_text d <> diff_after l ++ tail.
Proof.
  exists [DText [97]; DText [98; 10; 99]], [OStr [98; 10]; OStr [97; 99; 10]].
  split; [vm_compute; reflexivity|]. intros tail H. cbn in H. discriminate.
Qed.
(** It holds when no two strings are adjacent, empty ones apart.  Missing: adjacent
    strings. *)
Theorem C54_any_stream_partial : forall space l, no_text_twice (visible l) ->
  exists d tail, to_line_diff space l = Ok d /\ (tail = [] \/ tail = [10]) /\
  into_text d = diff_after l ++ tail /\ from_text d = diff_before l ++ tail.
Proof. exact line_diff_texts. Qed.

(** C55: consolidation. *)
Theorem C55_consolidate : forall l,
  into_text (consolidate_lines l) = into_text l /\ from_text (consolidate_lines l) = from_text l /\
  strings (consolidate_lines l) = strings l /\ no_change_twice (consolidate_lines l).
Proof. exact consolidate_ok. Qed.
Theorem C55_consolidate_whole : forall l, Forall whole_item l -> Forall whole_item (consolidate_lines l).
Proof. exact consolidate_whole. Qed.

Print Assumptions C52_texts.
Print Assumptions C52_texts_changes.
Print Assumptions C53_whole_lines.
Print Assumptions C53_sides.
Print Assumptions C54_any_stream_refuted.
Print Assumptions C54_any_stream_partial.
Print Assumptions C55_consolidate.
Print Assumptions C55_consolidate_whole.

(** Concrete cases: "x\nab", Change("c","d"), "e\ny" *)
Definition blank (c : Z) : bool := (c =? 32) || (c =? 10).
Definition ex_stream : list (ditem Z) := [DText [120; 10; 97; 98]; DChange [99] [100]; DText [101; 10; 121]].
Example C52_example : alternating (visible ex_stream) /\ to_line_diff blank ex_stream =
  Ok [OStr [120; 10];
      OChange [LStr [97; 98]; LChange [99] []; LStr [101; 10]] [LStr [97; 98]; LChange [] [100]; LStr [101; 10]];
      OStr [121; 10]].
Proof.
  split; [|vm_compute; reflexivity].
  intros [|[|[|k]]] x y H1 H2; cbn in H1, H2; try discriminate; try (destruct k; discriminate);
    injection H1 as <-; injection H2 as <-; [left|right]; (split; [eexists|eexists]; try eexists; reflexivity).
Qed.
Example C52_example_empty : visible [DChange [97] []; DText []; DChange [] [98]] = [DChange [97] []; DChange [] [98]].
Proof. reflexivity. Qed.
Example C55_example : consolidate_lines [OChange [LStr [97; 10]] [LStr [98; 10]]; OChange [LStr [99; 10]] [LStr [100; 10]]; OStr [10]]
  = [OChange [LStr [97; 10]; LStr [99; 10]] [LStr [98; 10]; LStr [100; 10]]; OStr [10]].
Proof. reflexivity. Qed.
