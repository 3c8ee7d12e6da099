(** How a written automaton is read (C117). *)
From Verif Require Import Base SpecSeq Dump.

Section SpecDump.
Context {T : Type}.
(** the transitions written lead from [i] to [j] by the tokens of [w] *)
Inductive walk (lines : list (dot_line T)) : nat -> list T -> nat -> Prop :=
| walk_here : forall i, walk lines i [] i
| walk_step : forall i t k w j, In (DotEdge i t k) lines -> walk lines k w j -> walk lines i (t :: w) j.

(** what a dump says, in the lines of the other format: a line for a transition belongs
    to the last line for a node before it *)
Fixpoint said (current : nat) (lines : list (dump_line T)) : list (dot_line T) :=
  match lines with
  | [] => []
  | DumpNode i _ b :: r => (if b then [DotRed i] else []) ++ said i r
  | DumpTransition t j :: r => DotEdge current t j :: said current r
  | DumpNone :: r => said current r
  end.
(** the nodes of a dump, in the order of their lines *)
Definition dumped_nodes (lines : list (dump_line T)) : list nat :=
  flat_map (fun l => match l with DumpNode i _ _ => [i] | _ => [] end) lines.
(** the length of a node is that of the longest word that leads to it *)
Definition true_lengths (lines : list (dump_line T)) : Prop := forall i len b, In (DumpNode i len b) lines ->
  (exists w, walk (said 0 lines) 0 w i /\ length w = len) /\
  (forall w, walk (said 0 lines) 0 w i -> length w <= len).

(** from [i] the word [w] leads to a node marked as terminal *)
Definition accepted (lines : list (dot_line T)) (i : nat) (w : list T) : Prop :=
  exists j, walk lines i w j /\ In (DotRed j) lines.
(** The lines, each written once, describe a deterministic automaton, without
    unreachable or superfluous nodes, that reads from node 0 the words that occur in [s]
    and accepts the suffixes of [s]. *)
Record minimal_automaton (s : list T) (lines : list (dot_line T)) : Prop := {
  once : NoDup lines;
  deterministic : forall i t j j', In (DotEdge i t j) lines -> In (DotEdge i t j') lines -> j = j';
  reachable : forall i, (In (DotRed i) lines \/ exists t j, In (DotEdge i t j) lines) -> exists w, walk lines 0 w i;
  reads : forall w, (exists j, walk lines 0 w j) <-> (exists p, occurs_at s w p);
  accepts : forall w, accepted lines 0 w <-> In w (suffixes s);
  minimal : forall u v i j, walk lines 0 u i -> walk lines 0 v j -> (forall w, accepted lines i w <-> accepted lines j w) -> i = j
}.
End SpecDump.
