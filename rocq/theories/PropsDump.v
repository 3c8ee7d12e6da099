(** Theorems about writing out an automaton (C117, C118). *)
From Coq Require Import Permutation.
From Verif Require Import Base Automaton SpecSeq Dump SpecDump DumpProofs DumpDepth.

Section Theorems.
Context {T : Type} {E : Teq T} {O : TeqOk T}.

(** C117: what dot_dump writes is the minimal deterministic automaton of the suffixes; *)
Theorem C117_dot : forall s : list T, exists h lines,
  build s = Some h /\ dot_dump h = Some lines /\ minimal_automaton s lines.
Proof. exact dot_dump_ok. Qed.
(** so is what dump writes, with one line for every node, which gives the length of
    the longest word that leads there. *)
Theorem C117_dump : forall (s : list T) limit, length s < limit -> exists h lines,
  build s = Some h /\ dump limit h = Ok lines /\
  Permutation (dumped_nodes lines) (seq 0 (length h)) /\ minimal_automaton s (said 0 lines) /\ true_lengths lines.
Proof. exact dump_ok. Qed.

(** C118, what holds: both need one call more than the text has tokens, no more and no
    fewer, whatever the text.  What is missing: texts that reach the limit, see
    [C118_refuted]. *)
Theorem C118_dump_partial : forall (s : list T) h limit, build s = Some h ->
  (length s < limit -> exists lines, dump limit h = Ok lines) /\
  (limit <= length s -> dump limit h = Err RecursionError).
Proof. exact dump_depth. Qed.
Theorem C118_all_suffixes_partial : forall (s : list T) h limit, build s = Some h ->
  (all_suffixes_from limit h 0 <> None <-> length s < limit).
Proof. exact suffixes_depth. Qed.
(** No recursion limit does for all texts. *)
Theorem C118_refuted : forall (t : T) limit, exists s h, build s = Some h /\
  dump limit h = Err RecursionError /\ all_suffixes_from limit h 0 = None.
Proof. exact too_deep. Qed.
End Theorems.

(** * Examples *)
(** "abcbc", the first text the module dumps when run *)
Example C117_dot_example : match build [1;2;3;2;3] with Some h => dot_dump h | None => None end =
  Some [DotRed 0; DotEdge 0 1 1; DotEdge 0 2 5; DotEdge 0 3 7;
        DotRed 7; DotEdge 7 2 4; DotEdge 4 3 6; DotRed 6;
        DotEdge 5 3 7; DotEdge 1 2 2; DotEdge 2 3 3; DotEdge 3 2 4].
Proof. vm_compute. reflexivity. Qed.
Example C117_dump_example : match build [1;1;2] with Some h => dump 4 h | None => Ok [] end =
  Ok [DumpNode 0 0 true; DumpTransition 1 1; DumpTransition 2 3;
      DumpNode 1 1 false; DumpTransition 1 2; DumpTransition 2 3;
      DumpNode 2 2 false; DumpTransition 2 3; DumpNode 3 3 true; DumpNone].
Proof. vm_compute. reflexivity. Qed.
Example C118_example : match build [1;2;3;2;3] with
  | Some h => (dump 5 h, all_suffixes_from 5 h 0, all_suffixes_from 6 h 0)
  | None => (Ok [], None, None)
  end = (Err RecursionError, None, Some [[]; [1;2;3;2;3]; [2;3]; [2;3;2;3]; [3]; [3;2;3]]).
Proof. vm_compute. reflexivity. Qed.

Print Assumptions C117_dot.
Print Assumptions C117_dump.
Print Assumptions C118_dump_partial.
Print Assumptions C118_all_suffixes_partial.
Print Assumptions C118_refuted.
