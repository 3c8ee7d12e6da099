(** Model of the functions that write out an automaton:
    /repo/src/gaspra/suffix_automaton.py:311-333 ([dump]) and dot_dump.py:6-23
    ([dump]).

    A written line is modelled by what its fields are; the indentation, the fixed text
    around the fields and the formatting of tokens (which dot_dump does not escape) are
    left out.  The module dot_dump imports gaspra.revision_tree, which is not part of
    the package (it is in src/deprecated), so its functions are modelled as written.
    Nodes are numbered as in Automaton.v, that is, by their id. *)
From Verif Require Import Base Automaton.

Section Dump.
Context {T : Type} {E : Teq T}.

Definition among (i : nat) (l : list nat) : bool := existsb (Nat.eqb i) l.

(** dot_dump.py:15 and 18: a terminal node, a transition *)
Inductive dot_line :=
| DotRed (id : nat)
| DotEdge (id : nat) (token : T) (child : nat).
(** dot_dump.py:14-18, the lines for one node *)
Definition node_dot (i : nat) (nd : node T) : list dot_line :=
  (if n_term nd then [DotRed i] else []) ++ map (fun e => DotEdge i (fst e) (snd e)) (n_trans nd).
(** dot_dump.py:10-21.  The list [queue] is popped at its end; here its end is the head,
    so the children are put on in reverse. *)
Fixpoint dot_loop (fuel : nat) (h : heap T) (queue processed : list nat) (out : list dot_line)
  : option (list dot_line) :=
  match queue with
  | [] => Some out
  | c :: queue =>
    match fuel with
    | 0 => None
    | S fuel =>
      if among c processed then dot_loop fuel h queue processed out
      else match nth_error h c with
           | None => None
           | Some nd => dot_loop fuel h (rev (map snd (n_trans nd)) ++ queue) (processed ++ [c]) (out ++ node_dot c nd)
           end
    end
  end.
(** dot_dump.py:6-23, [dump] on the root *)
Definition dot_dump (h : heap T) : option (list dot_line) :=
  dot_loop (S (list_sum (map (fun nd => length (n_trans nd)) h))) h [0] [] [].

(** suffix_automaton.py:320-323, 326 and 328 *)
Inductive dump_line :=
| DumpNode (id length : nat) (is_terminal : bool)
| DumpTransition (token : T) (child : nat)
| DumpNone.
(** suffix_automaton.py:320-328, the lines for one node *)
Definition node_dump (i : nat) (nd : node T) : list dump_line :=
  DumpNode i (n_len nd) (n_term nd) ::
  match n_trans nd with
  | [] => [DumpNone]
  | tr => map (fun e => DumpTransition (fst e) (snd e)) tr
  end.
(** suffix_automaton.py:332-333, the loop over the transitions *)
Fixpoint dump_all (rec : nat -> list nat -> res (list nat * list dump_line)) (tr : dict T nat) (dumped : list nat)
  : res (list nat * list dump_line) :=
  match tr with
  | [] => Ok (dumped, [])
  | (_, j) :: tr =>
    let* p := rec j dumped in
    let* q := dump_all rec tr (fst p) in
    Ok (fst q, snd p ++ snd q)
  end.
(** suffix_automaton.py:311-333, [dump] with at most [limit] nested calls; [dumped] is
    the set shared by the calls.  [AttributeError] stands for a node that is not there. *)
Fixpoint dump_lim (limit : nat) (h : heap T) (root : nat) (dumped : list nat) : res (list nat * list dump_line) :=
  match limit with
  | 0 => Err RecursionError
  | S limit =>
    if among root dumped then Ok (dumped, [])
    else match nth_error h root with
         | None => Err AttributeError
         | Some nd =>
           let* q := dump_all (dump_lim limit h) (n_trans nd) (dumped ++ [root]) in
           Ok (fst q, node_dump root nd ++ snd q)
         end
  end.
Definition dump (limit : nat) (h : heap T) : res (list dump_line) :=
  let* p := dump_lim limit h 0 [] in Ok (snd p).
End Dump.
Arguments dot_line : clear implicits.
Arguments dump_line : clear implicits.
